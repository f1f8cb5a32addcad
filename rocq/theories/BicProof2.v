(** Proofs about bound inner classes: the world over a history. *)
From Verif Require Import PyStrProof BicModel BicSpec BicProof.

Lemma merge_nodup f ls r : merge f ls = Some r -> NoDup r.
Proof.
  revert ls r. induction f as [|f IH]; intros ls r H; cbn [merge] in H; destruct (all_empty ls) eqn:A; try (injection H as <-; constructor); [discriminate|].
  destruct (find_head ls ls) as [x|] eqn:E; [|discriminate]. destruct (merge f (map (drop_head x) ls)) as [r'|] eqn:E'; [|discriminate]. injection H as <-.
  constructor; [|apply (IH _ _ E')]. intros I. rewrite (merge_in _ _ _ E' x) in I. destruct I as (l & I & J). apply in_map_iff in I. destruct I as (m & <- & I).
  apply find_head_elim in E. destruct E as (a & l & b & E & T & _). rewrite in_tail_false in T. destruct m as [|y t]; [destruct J|]. cbn [drop_head] in J.
  destruct (Nat.eqb_spec y x) as [-> |NE]; [apply (T _ _ I J)|]. destruct J as [J|J]; [contradiction|apply (T _ _ I J)].
Qed.
(** one class and its only base *)
Lemma merge_single c : forall l f, NoDup l -> ~ In c l -> length l <= f -> merge f [l; []] = Some l.
Proof.
  induction l as [|x l IH]; intros f ND NI L; [destruct f; reflexivity|]. inversion ND as [|? ? N1 N2]; subst. cbn [length] in L. destruct f as [|f]; [lia|]. cbn [merge all_empty forallb andb].
  assert (T : in_tail x [x :: l; []] = false) by (apply in_tail_false; intros h t [I|[I|[]]] J; [injection I as <- <-; contradiction|discriminate]).
  cbn [find_head]. rewrite T. cbn [map drop_head]. rewrite Nat.eqb_refl. cbn [drop_head]. rewrite IH; [reflexivity|exact N2| |lia]. intros I. apply NI. right. exact I.
Qed.
Lemma merge_one c r f : NoDup (c :: r) -> S (length r) <= f -> merge f [c :: r; [c]] = Some (c :: r).
Proof.
  intros ND L. inversion ND as [|? ? N1 N2]; subst. destruct f as [|f]; [lia|]. cbn [merge all_empty forallb andb].
  assert (T : in_tail c [c :: r; [c]] = false) by (apply in_tail_false; intros h t [I|[I|[]]] J; injection I as <- <-; [contradiction|destruct J]).
  cbn [find_head]. rewrite T. cbn [map drop_head]. rewrite Nat.eqb_refl. rewrite (merge_single c r f N2 N1) by lia. reflexivity.
Qed.

Section World.
  Context (type_attr : oid -> str -> option value) (w0 : world) (rank : oid -> cid -> nat).
  Hypothesis W0 : forall c, c < length (classes w0) -> class_ok w0 c.
  Hypothesis U : forall o, usage type_attr w0 o (rank o).
  Notation name_of := (name_of w0).
  Notation bases_of := (bases_of w0).
  Notation mro_of := (mro_of w0).
  Notation decorated := (decorated type_attr w0).
  Notation n0 := (length (classes w0)).

  Lemma decorated_iff o c : decorated o c = true <-> exists b, type_attr o (name_of c) = Some (VWorker b c).
  Proof.
    unfold BicSpec.decorated. destruct (type_attr o (name_of c)) as [[k|b c'|]|]; try (split; [discriminate|intros (x & H); discriminate]).
    rewrite Nat.eqb_eq. split; [intros ->; exists b; reflexivity|intros (x & H); injection H; auto].
  Qed.
  Lemma decorated_worker o n b c : type_attr o n = Some (VWorker b c) -> decorated o c = true.
  Proof. intros H. apply decorated_iff. destruct (u_own_name _ _ _ _ (U o) _ _ _ H) as (_ & -> & _). exists b. exact H. Qed.
  Lemma decorated_lt o c : decorated o c = true -> c < n0.
  Proof. intros H. apply decorated_iff in H. destruct H as (b & H). apply (u_own_name _ _ _ _ (U o) _ _ _ H). Qed.
  Lemma decorated_dict o c : decorated o c = true -> dict w0 o (name_of c) = None.
  Proof. intros H. apply decorated_iff in H. destruct H as (b & H). apply (u_own_name _ _ _ _ (U o) _ _ _ H). Qed.
  Lemma decorated_name o c c' : decorated o c = true -> decorated o c' = true -> name_of c = name_of c' -> c = c'.
  Proof. intros H H' E. apply decorated_iff in H, H'. destruct H as (b & H), H' as (b' & H'). rewrite E, H' in H. congruence. Qed.
  Lemma bases_lt c b : c < n0 -> In b (bases_of c) -> b < c.
  Proof. intros L I. destruct (W0 c L) as (F & _). rewrite Forall_forall in F. apply F, I. Qed.
  Lemma mro_head c : c < n0 -> exists r, mro_of c = c :: r.
  Proof. intros L. destruct (W0 c L) as (_ & r & _ & E). exists r. exact E. Qed.
  Lemma mro_le : forall c, c < n0 -> forall x, In x (mro_of c) -> x <= c.
  Proof.
    induction c as [c IH] using lt_wf_ind. intros L x I. destruct (W0 c L) as (F & r & M & E). rewrite E in I. destruct I as [-> |I]; [lia|].
    unfold linearise in M. rewrite (merge_in _ _ _ M x) in I. destruct I as (l & I & J). rewrite Forall_forall in F. apply in_app_or in I. destruct I as [I|[<- |[]]].
    - apply in_map_iff in I. destruct I as (b & <- & I). specialize (F b I). assert (x <= b) by (apply (IH b F); [lia|exact J]). lia.
    - specialize (F x J). lia.
  Qed.
  Lemma mro_tail_in c r x : c < n0 -> mro_of c = c :: r -> In x r -> exists b, In b (bases_of c) /\ In x (mro_of b).
  Proof.
    intros L E I. destruct (W0 c L) as (F & r' & M & E'). rewrite E in E'. injection E' as <-. unfold linearise in M. rewrite (merge_in _ _ _ M x) in I. destruct I as (l & I & J).
    apply in_app_or in I. destruct I as [I|[<- |[]]].
    - apply in_map_iff in I. destruct I as (b & <- & I). exists b. auto.
    - exists x. split; [exact J|]. rewrite Forall_forall in F. specialize (F x J). destruct (mro_head x) as (s & ->); [lia|]. left. reflexivity.
  Qed.
  Lemma mro_nodup c : c < n0 -> NoDup (mro_of c).
  Proof.
    intros L. destruct (W0 c L) as (F & r & M & E). rewrite E. constructor; [|apply (merge_nodup _ _ _ M)]. intros I. destruct (mro_tail_in c r c L E I) as (b & J & K).
    pose proof (bases_lt c b L J). assert (c <= b) by (apply mro_le; [lia|exact K]). lia.
  Qed.

  (** the world grows *)
  Definition ext (w w' : world) : Prop := (exists e, classes w' = classes w ++ e) /\ forall o n v, dict w o n = Some v -> dict w' o n = Some v.
  Lemma ext_refl w : ext w w. Proof. split; [exists []; symmetry; apply app_nil_r|auto]. Qed.
  Lemma ext_trans w w' w'' : ext w w' -> ext w' w'' -> ext w w''.
  Proof. intros ((e & E) & H) ((e' & E') & H'). split; [exists (e ++ e'); rewrite E', E, app_assoc; reflexivity|auto]. Qed.
  Lemma ext_len w w' : ext w w' -> length (classes w) <= length (classes w').
  Proof. intros ((e & ->) & _). rewrite app_length. lia. Qed.
  Lemma ext_class w w' k : ext w w' -> k < length (classes w) -> the_class w' k = the_class w k.
  Proof. intros ((e & E) & _) L. unfold the_class. rewrite E. apply app_nth1, L. Qed.

  Inductive doubled (w : world) (o : oid) : list cid -> list cid -> Prop :=
  | d_nil : doubled w o [] []
  | d_plain x l l' : decorated o x = false -> doubled w o l l' -> doubled w o (x :: l) (x :: l')
  | d_dec x k l l' : decorated o x = true -> dict w o (name_of x) = Some (VClass k) -> doubled w o l l' -> doubled w o (x :: l) (k :: x :: l').
  Lemma doubled_ext w w' o l l' : ext w w' -> doubled w o l l' -> doubled w' o l l'.
  Proof. intros X D. induction D; constructor; auto. apply X. assumption. Qed.
  Record wrapped (w : world) (o : oid) (b : bool) (c k : cid) : Prop := {
    wr_lt : n0 <= k < length (classes w);
    wr_name : c_name (the_class w k) = name_of c;
    wr_kind : c_kind (the_class w k) = if b then BoundTo o c else UnboundIn c;
    wr_bases : exists t, c_bases (the_class w k) = c :: t;
    wr_mro : doubled w o (mro_of c) (c_mro (the_class w k)) }.
  Lemma wrapped_ext w w' o b c k : ext w w' -> wrapped w o b c k -> wrapped w' o b c k.
  Proof.
    intros X [A B C D E]. pose proof (ext_len _ _ X). split; [lia| | | |]; rewrite (ext_class _ _ k X) by lia; auto. apply (doubled_ext w w'); assumption.
  Qed.
  Record inv (w : world) : Prop := {
    i_ext : ext w0 w;
    i_entry : forall o n v, dict w o n = Some v -> dict w0 o n = Some v \/
      exists b c k, v = VClass k /\ type_attr o n = Some (VWorker b c) /\ wrapped w o b c k;
    i_inj : forall o n o' n' k, dict w0 o n = None -> dict w0 o' n' = None -> dict w o n = Some (VClass k) -> dict w o' n' = Some (VClass k) -> o = o' /\ n = n' }.
  Lemma inv_class w c : inv w -> c < n0 -> the_class w c = the_class w0 c.
  Proof. intros I L. apply ext_class; [apply I|exact L]. Qed.
  Lemma inv_w0 : inv w0.
  Proof.
    split; [apply ext_refl|auto|]. intros o n o' n' k H _ H'. congruence.
  Qed.
  Lemma inv_cached w o n b c v : inv w -> type_attr o n = Some (VWorker b c) -> dict w o n = Some v -> exists k, v = VClass k /\ wrapped w o b c k.
  Proof.
    intros I T H. destruct (i_entry _ I _ _ _ H) as [H0 | (b' & c' & k & -> & T' & Wr)].
    - destruct (u_own_name _ _ _ _ (U o) _ _ _ T) as (_ & _ & Q). congruence.
    - rewrite T in T'. injection T' as <- <-. exists k. auto.
  Qed.
  (** what the loop appends for a base *)
  Definition inh (w : world) (o : oid) (b x : cid) : Prop :=
    if decorated o b then dict w o (name_of b) = Some (VClass x) else x = b.
  Lemma inh_ext w w' o b x : ext w w' -> inh w o b x -> inh w' o b x.
  Proof. intros X. unfold inh. destruct (decorated o b); [apply X|auto]. Qed.
  (** only classes of rank less than r have been cached, for o *)
  Definition fresh (w w' : world) (o : oid) (r : nat) : Prop :=
    forall o' n v, dict w o' n = None -> dict w' o' n = Some v -> o' = o /\ exists b x, type_attr o n = Some (VWorker b x) /\ rank o x < r.
  Lemma fresh_trans w w' w'' o r : fresh w w' o r -> fresh w' w'' o r -> fresh w w'' o r.
  Proof.
    intros F F' o' n v H H'. destruct (dict w' o' n) as [v'|] eqn:E; [apply (F _ _ _ H E)|apply (F' _ _ _ E H')].
  Qed.
  Lemma fresh_mono w w' o r r' : r <= r' -> fresh w w' o r -> fresh w w' o r'.
  Proof. intros L F o' n v H H'. destruct (F _ _ _ H H') as (-> & b & x & T & R). split; [reflexivity|]. exists b, x. split; [exact T|lia]. Qed.
  Lemma fresh_refl w o r : fresh w w o r.
  Proof. intros o' n v H H'. congruence. Qed.

  (** the method resolution order of a bound class *)
  Section Linear.
    Context (w : world) (o : oid) (I : inv w).
    Let dec (x : cid) : bool := decorated o x && match dict w o (name_of x) with Some (VClass _) => true | _ => false end.
    Let W (x : cid) : cid := match dict w o (name_of x) with Some (VClass k) => k | _ => 0 end.
    Lemma dec_W x k : decorated o x = true -> dict w o (name_of x) = Some (VClass k) -> dec x = true /\ W x = k.
    Proof. intros E H. unfold dec, W. rewrite E, H. auto. Qed.
    Lemma dec_inv x : dec x = true -> decorated o x = true /\ dict w o (name_of x) = Some (VClass (W x)).
    Proof. unfold dec, W. intros H. apply andb_prop in H. destruct H as (E & H). destruct (dict w o (name_of x)) as [[k| |]|]; try discriminate. auto. Qed.
    Lemma W_new x : dec x = true -> n0 <= W x.
    Proof.
      intros H. apply dec_inv in H. destruct H as (E & H). apply decorated_iff in E. destruct E as (b & E). destruct (inv_cached _ _ _ _ _ _ I E H) as (k & Q & Wr). injection Q as ->. apply Wr.
    Qed.
    Lemma W_inj x y : dec x = true -> dec y = true -> W x = W y -> x = y.
    Proof.
      intros H H' E. apply dec_inv in H, H'. destruct H as (E1 & H), H' as (E2 & H'). rewrite <- E in H'. apply (decorated_name o); [assumption|assumption|].
      apply (i_inj _ I o _ o _ (W x)); auto; apply decorated_dict; assumption.
    Qed.
    Lemma doubled_D l l' : doubled w o l l' -> l' = D dec W l.
    Proof.
      intros H. induction H as [|x l l' E H IH|x k l l' E Q H IH]; [reflexivity| |]; unfold D; cbn [flat_map]; fold (D dec W l); unfold dd.
      - unfold dec at 1. rewrite E. cbn [andb app]. rewrite <- IH. reflexivity.
      - destruct (dec_W _ _ E Q) as (-> & ->). rewrite <- IH. reflexivity.
    Qed.
    Lemma D_doubled l : (forall x, In x l -> decorated o x = true -> dec x = true) -> doubled w o l (D dec W l).
    Proof.
      induction l as [|x l IH]; intros H; [constructor|]. unfold D. cbn [flat_map]. fold (D dec W l). unfold dd. destruct (dec x) eqn:E.
      - destruct (dec_inv x E) as (E1 & E2). cbn [app]. constructor; [exact E1|exact E2|]. apply IH. intros y J. apply H. right. exact J.
      - cbn [app]. constructor; [|apply IH; intros y J; apply H; right; exact J]. destruct (decorated o x) eqn:E'; [|reflexivity]. rewrite (H x (or_introl eq_refl) E') in E. discriminate.
    Qed.
    Lemma doubled_dec l l' x : doubled w o l l' -> In x l -> decorated o x = true -> dec x = true.
    Proof.
      intros H. induction H as [|y l l' E H IH|y k l l' E Q H IH]; intros J E'; [destruct J| |]; destruct J as [-> |J]; auto; [congruence|]. apply (dec_W x k E Q).
    Qed.
    Lemma doubled_plain l : (forall x, In x l -> decorated o x = false) -> doubled w o l l.
    Proof. induction l as [|x l IH]; intros H; constructor; [apply H; left; reflexivity|apply IH; intros y J; apply H; right; exact J]. Qed.

    Lemma linearise_wrapper c l : decorated o c = true -> Forall2 (inh w o) (bases_of c) l ->
      exists r r', mro_of c = c :: r /\ doubled w o r r' /\ linearise w (if existsb (decorated o) (bases_of c) then c :: l else [c]) = Some (c :: r').
    Proof.
      intros DC F. pose proof (decorated_lt o c DC) as L. pose proof (mro_nodup c L) as ND. destruct (W0 c L) as (BL & r & M & E). exists r.
      destruct (existsb (decorated o) (bases_of c)) eqn:EX.
      - exists (D dec W r). split; [exact E|].
        (* each base *)
        assert (B : forall b, In b (bases_of c) -> b < n0 /\ (forall x, In x (mro_of b) -> decorated o x = true -> dec x = true) /\
                    c_mro (the_class w (h dec W b)) = D dec W (mro_of b)).
        { intros b J. pose proof (bases_lt c b L J) as BLT. split; [lia|]. assert (FB : exists x, inh w o b x).
          { clear -F J. induction F as [|b0 x0 bs xs P F IH]; [destruct J|]. destruct J as [<- |J]; [exists x0; exact P|apply IH, J]. }
          destruct FB as (x & P). unfold inh in P. unfold h. destruct (decorated o b) eqn:DB.
          - destruct (dec_W b x DB P) as (-> & ->). apply decorated_iff in DB. destruct DB as (d & T). destruct (inv_cached _ _ _ _ _ _ I T P) as (k & Q & Wr). injection Q as <-.
            pose proof (wr_mro _ _ _ _ _ Wr) as DM. split; [intros y; apply (doubled_dec _ _ _ DM)|apply doubled_D, DM].
          - assert (ED : dec b = false) by (unfold dec; rewrite DB; reflexivity). rewrite ED.
            assert (PL : forall y, In y (mro_of b) -> decorated o y = false).
            { intros y K. destruct (decorated o y) eqn:DY; [|reflexivity]. rewrite (u_decorate _ _ _ _ (U o) c b y DC J K DY) in DB. discriminate. }
            split; [intros y K DY; rewrite (PL y K) in DY; discriminate|]. rewrite (inv_class w b I) by lia. apply (doubled_D (mro_of b)), doubled_plain, PL. }
        assert (HL : l = map (h dec W) (bases_of c)).
        { clear -F. induction F as [|b x bs xs P F IH]; [reflexivity|]. cbn [map]. rewrite <- IH. f_equal. unfold inh in P. unfold h. destruct (decorated o b) eqn:DB.
          - destruct (dec_W b x DB P) as (-> & ->). reflexivity.
          - assert (ED : dec b = false) by (unfold dec; rewrite DB; reflexivity). rewrite ED. exact P. }
        assert (RD : forall x, In x r -> decorated o x = true -> dec x = true).
        { intros x J. destruct (mro_tail_in c r x L E J) as (b & K & K'). apply (B b K). exact K'. }
        split; [apply D_doubled, RD|].
        (* the linearisation *)
        set (fl := map (fun b => (true, mro_of b)) (bases_of c) ++ [(false, bases_of c)]).
        assert (FL : map snd fl = map (fun b => c_mro (the_class w0 b)) (bases_of c) ++ [bases_of c]) by (unfold fl; rewrite map_app, map_map; reflexivity).
        assert (MR : map (fun x => c_mro (the_class w x)) l = map (fun b => D dec W (mro_of b)) (bases_of c)).
        { rewrite HL, map_map. apply map_ext_in. intros b J. apply B, J. }
        assert (FD : map (dbl dec W) fl = map (fun x => c_mro (the_class w x)) l ++ [l]).
        { unfold fl. rewrite map_app, map_map, MR. cbn [map]. unfold dbl. cbn [fst snd]. rewrite HL. reflexivity. }
        assert (OLD : Forall (fun p => old n0 (snd p)) fl).
        { apply Forall_app. split; [apply Forall_map, Forall_forall; intros b J; cbn [snd]; apply Forall_forall; intros x K; destruct (B b J) as (L1 & _); pose proof (mro_le b L1 x K); lia|].
          constructor; [|constructor]. cbn [snd]. apply Forall_forall. intros b J. apply B, J. }
        assert (COV : forall l0 x, In (false, l0) fl -> In x l0 -> exists l', In (true, l') fl /\ In x l').
        { intros l0 x J K. unfold fl in J. apply in_app_or in J. destruct J as [J|[J|[]]]; [apply in_map_iff in J; destruct J as (b & Q & _); discriminate|]. injection J as <-.
          exists (mro_of x). destruct (B x K) as (L1 & _). destruct (mro_head x L1) as (s & Q). split; [apply in_or_app; left; apply in_map_iff; exists x; auto|rewrite Q; left; reflexivity]. }
        unfold linearise in M. rewrite <- FL in M.
        pose proof (double_merge dec W n0 W_new W_inj _ fl r M OLD COV (length (D dec W r)) (le_n _)) as DM. rewrite FD in DM.
        pose proof (merge_length _ _ _ DM) as LEN.
        (* c comes first *)
        unfold linearise. cbn [map app].
        assert (CM : c_mro (the_class w c) = c :: r) by (rewrite (inv_class w c I L); exact E). rewrite CM.
        set (rest := map (fun x => c_mro (the_class w x)) l) in *.
        assert (NC : forall b, In b (bases_of c) -> ~ In c (D dec W (mro_of b))).
        { intros b J K. assert (K' : In c (mro_of b)) by (apply (D_old dec W n0 W_new c (mro_of b) L); exact K). pose proof (bases_lt c b L J). assert (c <= b) by (apply mro_le; [lia|exact K']). lia. }
        assert (NL : ~ In c l).
        { rewrite HL. intros K. apply in_map_iff in K. destruct K as (b & Q & K). pose proof (bases_lt c b L K). unfold h in Q. destruct (dec b) eqn:ED; [pose proof (W_new b ED); lia|lia]. }
        assert (NR : forall m, In m rest -> ~ In c m) by (rewrite MR; intros m J; apply in_map_iff in J; destruct J as (b & <- & J); apply NC, J).
        assert (T : in_tail c ((c :: r) :: rest ++ [c :: l]) = false).
        { apply in_tail_false. intros h1 t [J|J] K; [injection J as <- <-; rewrite E in ND; inversion ND; contradiction|]. apply in_app_or in J. destruct J as [J|[J|[]]].
          - apply (NR _ J). right. exact K.
          - injection J as <- <-. contradiction. }
        assert (DR : map (drop_head c) ((c :: r) :: rest ++ [c :: l]) = r :: rest ++ [l]).
        { cbn [map drop_head]. rewrite Nat.eqb_refl, map_app. cbn [map drop_head]. rewrite Nat.eqb_refl. f_equal. f_equal. rewrite <- (map_id rest) at 2. apply map_ext_in. intros m J. destruct m as [|a t]; [reflexivity|]. cbn [drop_head].
          destruct (Nat.eqb_spec a c) as [-> |]; [|reflexivity]. destruct (NR _ J). left. reflexivity. }
        set (all := (c :: r) :: rest ++ [c :: l]) in *.
        assert (TT : total all >= S (total (r :: rest ++ [l]))).
        { unfold all, total. cbn [map]. rewrite !map_app. cbn [map]. unfold list_sum. cbn [fold_right]. rewrite !fold_right_app. cbn [fold_right length]. fold (list_sum (map (@length cid) rest)).
          assert (G : forall q a, fold_right Nat.add a q = fold_right Nat.add 0 q + a) by (intros q a; induction q as [|y q IHq]; cbn; [lia|rewrite IHq; lia]).
          rewrite (G _ (S (length l) + 0)), (G _ (length l + 0)). lia. }
        assert (NE : all_empty all = false) by reflexivity.
        assert (FH : find_head all all = Some c) by (unfold all; cbn [find_head]; fold all; rewrite T; reflexivity).
        change (merge (total all) all = Some (c :: D dec W r)). clearbody all. destruct (total all) as [|F'] eqn:ET; [lia|].
        cbn [merge]. rewrite NE, FH, DR. rewrite (merge_fuel _ _ _ DM F') by lia. reflexivity.
      - exists r. split; [exact E|]. split.
        + apply doubled_plain. intros x J. destruct (mro_tail_in c r x L E J) as (b & K & K'). destruct (decorated o x) eqn:DX; [|reflexivity].
          pose proof (u_decorate _ _ _ _ (U o) c b x DC K K' DX) as DB. assert (Q : existsb (decorated o) (bases_of c) = true) by (apply existsb_exists; exists b; auto). congruence.
        + unfold linearise. cbn [map app]. assert (CM : c_mro (the_class w c) = c :: r) by (rewrite (inv_class w c I L); exact E). rewrite CM. apply merge_one; [rewrite <- E; exact ND|]. cbn. lia.
    Qed.
  End Linear.

  Definition post (w : world) (o : oid) (c : cid) (fuel : nat) (res : result (world * cid)) : Prop :=
    match res with
    | Err e => e = RecursionError /\ fuel <= rank o c
    | Ok (w', k) => inv w' /\ ext w w' /\ dict w' o (name_of c) = Some (VClass k) /\ fresh w w' o (S (rank o c))
    end.
  Lemma loop_spec fuel o c : decorated o c = true ->
    (forall w b c', inv w -> type_attr o (name_of c') = Some (VWorker b c') -> dict w o (name_of c') = None -> post w o c' fuel (worker_get type_attr fuel w o b c')) ->
    forall bases w, inv w -> incl bases (bases_of c) ->
    match bases_loop type_attr (fun w b c => worker_get type_attr fuel w o b c) o (name_of c) bases w with
    | Err e => e = RecursionError /\ S fuel <= rank o c
    | Ok (w', l, m) => inv w' /\ ext w w' /\ fresh w w' o (rank o c) /\ Forall2 (inh w' o) bases l /\ m = existsb (decorated o) bases
    end.
  Proof.
    intros DC G. pose proof (decorated_lt o c DC) as L. induction bases as [|b bases IH]; intros w I SUB; cbn [bases_loop].
    { split; [exact I|]. split; [apply ext_refl|]. split; [apply fresh_refl|]. split; [constructor|reflexivity]. }
    assert (IB : In b (bases_of c)) by (apply SUB; left; reflexivity). pose proof (bases_lt c b L IB) as BLT.
    assert (SUB' : incl bases (bases_of c)) by (intros x J; apply SUB; right; exact J).
    rewrite (inv_class w b I) by lia. fold (name_of b).
    (* what happens with this base *)
    set (one := if str_eqb (name_of b) (name_of c) then _ else _).
    assert (ONE : match one with
                  | Err e => e = RecursionError /\ S fuel <= rank o c
                  | Ok (w', x, m) => inv w' /\ ext w w' /\ fresh w w' o (rank o c) /\ inh w' o b x /\ m = decorated o b
                  end).
    { unfold one. clear one. destruct (str_eqb (name_of b) (name_of c)) eqn:EN.
      - apply str_eqb_eq in EN. assert (DB : decorated o b = false).
        { destruct (decorated o b) eqn:DB; [|reflexivity]. pose proof (decorated_name o b c DB DC EN). lia. }
        split; [exact I|]. split; [apply ext_refl|]. split; [apply fresh_refl|]. unfold inh. rewrite DB. auto.
      - assert (NN : name_of b <> name_of c) by (intros Q; apply str_eqb_eq in Q; congruence).
        (* a cached or new wrapper under the name of the base *)
        assert (WR : forall w' d c' k, inv w' -> type_attr o (name_of b) = Some (VWorker d c') -> dict w' o (name_of b) = Some (VClass k) ->
                     exists t, c_bases (the_class w' k) = c' :: t).
        { intros w' d c' k I' T H. destruct (inv_cached _ _ _ _ _ _ I' T H) as (k' & Q & Wr). injection Q as <-. apply Wr. }
        assert (FIN : forall w' d c' k, inv w' -> ext w w' -> fresh w w' o (rank o c) -> type_attr o (name_of b) = Some (VWorker d c') -> dict w' o (name_of b) = Some (VClass k) ->
                     match match c_bases (the_class w' k) with [] => Err IndexError | b0 :: _ => if b0 =? b then Ok (w', k, true) else Ok (w', b, false) end with
                     | Err e => e = RecursionError /\ S fuel <= rank o c
                     | Ok (w', x, m) => inv w' /\ ext w w' /\ fresh w w' o (rank o c) /\ inh w' o b x /\ m = decorated o b
                     end).
        { intros w' d c' k I' X' F' T H. destruct (WR w' d c' k I' T H) as (t & ->). destruct (Nat.eqb_spec c' b) as [-> |NE].
          - assert (DB : decorated o b = true) by (apply decorated_iff; exists d; exact T). unfold inh. rewrite DB. auto.
          - assert (DB : decorated o b = false) by (unfold BicSpec.decorated; rewrite T; apply Nat.eqb_neq, NE). unfold inh. rewrite DB. auto. }
        (* something else *)
        assert (OTH : forall k, decorated o b = false -> k < n0 -> (exists b' l, bases_of k = b' :: l /\ b' <> b) ->
                     match match c_bases (the_class w k) with [] => Err IndexError | b0 :: _ => if b0 =? b then Ok (w, k, true) else Ok (w, b, false) end with
                     | Err e => e = RecursionError /\ S fuel <= rank o c
                     | Ok (w', x, m) => inv w' /\ ext w w' /\ fresh w w' o (rank o c) /\ inh w' o b x /\ m = decorated o b
                     end).
        { intros k DB LK (b' & l & E & NE). rewrite (inv_class w k I LK). fold (bases_of k). rewrite E. destruct (Nat.eqb_spec b' b); [contradiction|].
          split; [exact I|]. split; [apply ext_refl|]. split; [apply fresh_refl|]. unfold inh. rewrite DB. auto. }
        assert (SAME : decorated o b = false -> inv w /\ ext w w /\ fresh w w o (rank o c) /\ inh w o b b /\ false = decorated o b).
        { intros DB. split; [exact I|]. split; [apply ext_refl|]. split; [apply fresh_refl|]. unfold inh. rewrite DB. auto. }
        unfold getattr_none. destruct (dict w o (name_of b)) as [v|] eqn:ED.
        + cbn [rbind]. destruct (i_entry _ I _ _ _ ED) as [H0|(d & c' & k & -> & T & _)].
          * assert (DB : decorated o b = false) by (destruct (decorated o b) eqn:DB; [|reflexivity]; rewrite (decorated_dict o b DB) in H0; discriminate).
            destruct v as [k|d c'|]; [|apply SAME, DB|apply SAME, DB]. destruct (u_class _ _ _ _ (U o) c b k DC IB NN (or_introl H0)) as (LK & Q). apply OTH; assumption.
          * apply (FIN w d c' k I (ext_refl w)); [apply fresh_refl|exact T|exact ED].
        + destruct (type_attr o (name_of b)) as [[k|d c'|]|] eqn:T; cbn [rbind rmap].
          * assert (DB : decorated o b = false) by (unfold BicSpec.decorated; rewrite T; reflexivity). destruct (u_class _ _ _ _ (U o) c b k DC IB NN (or_intror T)) as (LK & Q). apply OTH; assumption.
          * destruct (u_own_name _ _ _ _ (U o) _ _ _ T) as (LC & NC & _). assert (T' : type_attr o (name_of c') = Some (VWorker d c')) by (rewrite NC; exact T). rewrite <- NC in ED. pose proof (G w d c' I T' ED) as P. unfold post in P.
            pose proof (u_rank _ _ _ _ (U o) c b c' d DC IB NN T) as RK.
            destruct (worker_get type_attr fuel w o d c') as [[w' k]|e]; cbn [rmap rbind]; [|split; [apply P|lia]].
            destruct P as (I' & X' & H & F'). apply (FIN w' d c' k I' X'); [|reflexivity|rewrite <- NC; exact H]. apply (fresh_mono _ _ _ (S (rank o c'))); [lia|exact F'].
          * apply SAME. unfold BicSpec.decorated. rewrite T. reflexivity.
          * apply SAME. unfold BicSpec.decorated. rewrite T. reflexivity. }
    clearbody one. destruct one as [[[w' x] m]|e]; cbn [rbind]; [|exact ONE]. destruct ONE as (I' & X' & F' & H & ->).
    specialize (IH w' I' SUB'). destruct (bases_loop type_attr (fun w b c => worker_get type_attr fuel w o b c) o (name_of c) bases w') as [[[w'' l] m']|e]; cbn [rmap rbind]; [|exact IH].
    destruct IH as (I'' & X'' & F'' & H'' & ->). split; [exact I''|]. split; [apply (ext_trans _ w' _); assumption|]. split; [apply (fresh_trans _ w' _); assumption|].
    split; [constructor; [apply (inh_ext w'); assumption|exact H'']|reflexivity].
  Qed.
  Lemma the_class_last w w' cl : classes w' = classes w ++ [cl] -> the_class w' (length (classes w)) = cl.
  Proof. intros E. unfold the_class. rewrite E, app_nth2, Nat.sub_diag by lia. reflexivity. Qed.
  Lemma set_dict_same d o n v : set_dict d o n v o n = Some v.
  Proof. unfold set_dict. rewrite Nat.eqb_refl, str_eqb_refl. reflexivity. Qed.
  Lemma set_dict_cases d o n v o' n' : set_dict d o n v o' n' = d o' n' \/ (o' = o /\ n' = n).
  Proof.
    unfold set_dict. destruct ((o' =? o) && str_eqb n' n) eqn:E; [|left; reflexivity]. apply andb_prop in E. destruct E as (E1 & E2). apply Nat.eqb_eq in E1. apply str_eqb_eq in E2. right. auto.
  Qed.
  Lemma worker_spec : forall fuel w o b c, inv w -> type_attr o (name_of c) = Some (VWorker b c) -> dict w o (name_of c) = None ->
    post w o c fuel (worker_get type_attr fuel w o b c).
  Proof.
    induction fuel as [|fuel IH]; intros w o b c I T ND; [split; [reflexivity|lia]|]. cbn [worker_get].
    assert (DC : decorated o c = true) by (apply decorated_iff; exists b; exact T). pose proof (decorated_lt o c DC) as L. rewrite (inv_class w c I L). fold (name_of c) (bases_of c).
    pose proof (loop_spec fuel o c DC (fun w b c' => IH w o b c') (bases_of c) w I (incl_refl _)) as LS.
    destruct (bases_loop type_attr (fun w b c => worker_get type_attr fuel w o b c) o (name_of c) (bases_of c) w) as [[[w1 l] m]|e]; cbn [rbind]; [|exact LS].
    destruct LS as (I1 & X1 & F1 & H1 & ->). destruct (linearise_wrapper w1 o I1 c l DC H1) as (r & r' & ER & DR & ->).
    assert (ND1 : dict w1 o (name_of c) = None).
    { destruct (dict w1 o (name_of c)) as [v|] eqn:E; [|reflexivity]. destruct (F1 o (name_of c) v ND E) as (_ & d & x & T' & R'). rewrite T in T'. injection T' as <- <-. lia. }
    set (k := length (classes w1)). set (bs := if existsb (decorated o) (bases_of c) then c :: l else [c]).
    set (cl := Cls (name_of c) bs (k :: c :: r') (if b then BoundTo o c else UnboundIn c)). set (w2 := World (classes w1 ++ [cl]) (set_dict (dict w1) o (name_of c) (VClass k))).
    assert (X2 : ext w1 w2).
    { split; [exists [cl]; reflexivity|]. intros o' n v H. cbn [w2 dict]. unfold w2. cbn [dict]. destruct (set_dict_cases (dict w1) o (name_of c) (VClass k) o' n) as [-> |(-> & ->)]; [exact H|congruence]. }
    assert (CL : the_class w2 k = cl) by (apply the_class_last; reflexivity).
    assert (WR : wrapped w2 o b c k).
    { split.
      - split; [apply (ext_len w0 w1), I1|]. unfold w2. cbn [classes]. rewrite app_length. cbn [length]. unfold k. lia.
      - rewrite CL. reflexivity.
      - rewrite CL. reflexivity.
      - rewrite CL. unfold cl, bs. cbn [c_bases]. destruct (existsb (decorated o) (bases_of c)); [exists l|exists []]; reflexivity.
      - rewrite CL, ER. unfold cl. cbn [c_mro]. apply d_dec; [exact DC|unfold w2; cbn [dict]; apply set_dict_same|]. apply (doubled_ext w1 w2); assumption. }
    assert (OLDK : forall o' n' k', dict w0 o' n' = None -> dict w1 o' n' = Some (VClass k') -> k' < k).
    { intros o' n' k' H0 H. destruct (i_entry _ I1 _ _ _ H) as [Q|(d & x & k'' & Q & _ & Wr)]; [congruence|]. injection Q as ->. apply Wr. }
    cbn [rbind]. unfold post. split; [|split; [|split]].
    - split.
      + apply (ext_trans w0 w1 w2); [apply I1|exact X2].
      + intros o' n v H. unfold w2 in H. cbn [dict] in H. destruct (dict w1 o' n) as [v1|] eqn:E1.
        * pose proof (proj2 X2 _ _ _ E1) as E2. unfold w2 in E2. cbn [dict] in E2. rewrite E2 in H. injection H as <-. destruct (i_entry _ I1 _ _ _ E1) as [Q|(d & x & k' & -> & T' & Wr)]; [left; exact Q|].
          right. exists d, x, k'. split; [reflexivity|]. split; [exact T'|]. apply (wrapped_ext w1); assumption.
        * destruct (set_dict_cases (dict w1) o (name_of c) (VClass k) o' n) as [Q|(-> & ->)]; [congruence|]. rewrite set_dict_same in H. injection H as <-. right. exists b, c, k. auto.
      + intros o1 n1 o2 n2 k' A1 A2 H1' H2'. unfold w2 in H1', H2'. cbn [dict] in H1', H2'.
        destruct (set_dict_cases (dict w1) o (name_of c) (VClass k) o1 n1) as [Q1|(-> & ->)], (set_dict_cases (dict w1) o (name_of c) (VClass k) o2 n2) as [Q2|(-> & ->)].
        * rewrite Q1 in H1'. rewrite Q2 in H2'. apply (i_inj _ I1 _ _ _ _ k'); assumption.
        * rewrite set_dict_same in H2'. injection H2' as <-. rewrite Q1 in H1'. pose proof (OLDK _ _ _ A1 H1'). lia.
        * rewrite set_dict_same in H1'. injection H1' as <-. rewrite Q2 in H2'. pose proof (OLDK _ _ _ A2 H2'). lia.
        * auto.
    - apply (ext_trans _ w1 _); assumption.
    - unfold w2. cbn [dict]. apply set_dict_same.
    - intros o' n v H H'. unfold w2 in H'. cbn [dict] in H'. destruct (set_dict_cases (dict w1) o (name_of c) (VClass k) o' n) as [Q|(-> & ->)].
      + rewrite Q in H'. apply (fresh_mono _ _ _ (rank o c) (S (rank o c))) in F1; [|lia]. apply (F1 _ _ _ H H').
      + split; [reflexivity|]. exists b, c. split; [exact T|lia].
  Qed.
  (** an attribute of an object *)
  Lemma access_spec fuel w o n b c : inv w -> type_attr o n = Some (VWorker b c) ->
    match access type_attr fuel w o n with
    | Err e => e = RecursionError /\ fuel <= rank o c /\ dict w o n = None
    | Ok (w', v) => inv w' /\ ext w w' /\ (dict w o n <> None -> w' = w) /\ exists k, v = VClass k /\ dict w' o n = Some v /\ wrapped w' o b c k
    end.
  Proof.
    intros I T. destruct (u_own_name _ _ _ _ (U o) _ _ _ T) as (L & NC & _). unfold access. destruct (dict w o n) as [v|] eqn:E.
    - destruct (inv_cached _ _ _ _ _ _ I T E) as (k & -> & Wr). split; [exact I|]. split; [apply ext_refl|]. split; [reflexivity|]. exists k. auto.
    - rewrite T. rewrite <- NC in T, E. pose proof (worker_spec fuel w o b c I T E) as P. unfold post in P. destruct (worker_get type_attr fuel w o b c) as [[w' k]|e]; cbn [rmap rbind].
      + destruct P as (I' & X' & H & _). split; [exact I'|]. split; [exact X'|]. split; [intros Q; destruct Q; reflexivity|]. exists k. rewrite <- NC. split; [reflexivity|]. split; [exact H|].
        destruct (inv_cached _ _ _ _ _ _ I' T H) as (k' & Q & Wr). injection Q as <-. exact Wr.
      + destruct P as (P1 & P2). auto.
  Qed.
  Lemma step_inv w w' : inv w -> step type_attr w w' -> inv w' /\ ext w w'.
  Proof.
    intros I S. destruct S as [w o n fuel w' v A|w name bases mro M].
    - destruct (type_attr o n) as [[k|b c|]|] eqn:T.
      2: { pose proof (access_spec fuel w o n b c I T) as P. rewrite A in P. destruct P as (I' & X' & _). auto. }
      all: unfold access in A; rewrite T in A; destruct (dict w o n); injection A as <- <- || discriminate; auto using ext_refl.
    - assert (X : ext w (World (classes w ++ [Cls name bases (length (classes w) :: mro) Plain]) (dict w))) by (split; [eexists; reflexivity|auto]). split; [|exact X].
      split; [apply (ext_trans w0 w); [apply I|exact X]| |apply I]. intros o n v H. cbn [dict] in H. destruct (i_entry _ I _ _ _ H) as [Q|(b & c & k & -> & T & Wr)]; [left; exact Q|].
      right. exists b, c, k. split; [reflexivity|]. split; [exact T|]. apply (wrapped_ext w); assumption.
  Qed.
  Lemma history_inv w w' : inv w -> history type_attr w w' -> inv w' /\ ext w w'.
  Proof.
    intros I H. induction H as [w|w w1 w2 H IH S]; [auto using ext_refl|]. destruct (IH I) as (I1 & X1). destruct (step_inv _ _ I1 S) as (I2 & X2). split; [exact I2|apply (ext_trans w w1); assumption].
  Qed.
End World.
