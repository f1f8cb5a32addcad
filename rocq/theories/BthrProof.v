(** Proofs about bound inner classes in several threads: what holds in every interleaving. *)
From Verif Require Import PyStrProof BicModel BicSpec BicProof BicProof2 BthrModel BthrSpec.

Section World.
  Context (type_attr : oid -> str -> option value) (w0 : world) (rank : oid -> cid -> nat).
  Hypothesis W0 : forall c, c < length (classes w0) -> class_ok w0 c.
  Hypothesis U : forall o, usage type_attr w0 o (rank o).
  Notation name_of := (name_of w0).
  Notation bases_of := (bases_of w0).
  Notation mro_of := (mro_of w0).
  Notation decorated := (decorated type_attr w0).
  Notation n0 := (length (classes w0)).
  Notation exec := (exec type_attr).
  Notation act := (act type_attr).

  Definition grows (w w' : world) : Prop := exists e, classes w' = classes w ++ e.
  Lemma grows_refl w : grows w w. Proof. exists []. symmetry. apply app_nil_r. Qed.
  Lemma grows_trans w w' w'' : grows w w' -> grows w' w'' -> grows w w''.
  Proof. intros (e & E) (e' & E'). exists (e ++ e'). rewrite E', E, app_assoc. reflexivity. Qed.
  Lemma grows_len w w' : grows w w' -> length (classes w) <= length (classes w').
  Proof. intros (e & ->). rewrite app_length. lia. Qed.
  Lemma grows_class w w' k : grows w w' -> k < length (classes w) -> the_class w' k = the_class w k.
  Proof. intros (e & E) L. unfold the_class. rewrite E. apply app_nth1, L. Qed.
  (** a class that has been made for c and o *)
  Definition owner := cid -> option (oid * cid).
  Record made (w : world) (own : owner) (o : oid) (b : bool) (c k : cid) : Prop := {
    m_lt : n0 <= k < length (classes w);
    m_name : c_name (the_class w k) = name_of c;
    m_kind : c_kind (the_class w k) = if b then BoundTo o c else UnboundIn c;
    m_bases : exists t, c_bases (the_class w k) = c :: t;
    m_own : own k = Some (o, c) }.
  Definition own_grows (w : world) (own own' : owner) : Prop := forall k, k < length (classes w) -> own' k = own k.
  Lemma made_grows w w' own own' o b c k : grows w w' -> own_grows w own own' -> made w own o b c k -> made w' own' o b c k.
  Proof.
    intros X G [A B C D E]. pose proof (grows_len _ _ X). split; [lia| | | |]; try rewrite (grows_class _ _ k X) by lia; auto. rewrite G by lia. exact E.
  Qed.
  (** a call of __get__ that is going on *)
  Record frame_ok (w : world) (own : owner) (o : oid) (f : frame) : Prop := {
    f_attr : type_attr o (name_of (f_cls f)) = Some (VWorker (f_bound f) (f_cls f));
    f_part : exists l, bases_of (f_cls f) = l ++ f_todo f;
    f_top : forall k, f_made f = Some k -> f_todo f = [] /\ made w own o (f_bound f) (f_cls f) k }.
  (** the calls that are waiting, below a call for the class c *)
  Inductive waiting (w : world) (own : owner) (o : oid) (n : str) : cid -> list frame -> Prop :=
  | wait_nil c : name_of c = n -> waiting w own o n c []
  | wait_cons c f fs base todo : frame_ok w own o f -> f_made f = None -> f_todo f = base :: todo -> name_of base = name_of c -> name_of base <> name_of (f_cls f) ->
      waiting w own o n (f_cls f) fs -> waiting w own o n c (f :: fs).
  Definition frames_ok (w : world) (own : owner) (o : oid) (n : str) (fs : list frame) : Prop :=
    match fs with [] => False | f :: fs => frame_ok w own o f /\ waiting w own o n (f_cls f) fs end.
  Lemma frame_grows w w' own own' o f : grows w w' -> own_grows w own own' -> frame_ok w own o f -> frame_ok w' own' o f.
  Proof. intros X G [A B C]. split; auto. intros k H. destruct (C k H) as (D & E). split; [exact D|]. apply (made_grows w w' own own'); assumption. Qed.
  Lemma waiting_grows w w' own own' o n c fs : grows w w' -> own_grows w own own' -> waiting w own o n c fs -> waiting w' own' o n c fs.
  Proof.
    intros X G H. induction H as [c E|c f fs base todo F M T N1 N2 H IH]; [constructor; exact E|]. apply (wait_cons _ _ _ _ _ _ _ base todo); auto. apply (frame_grows w w' own own'); assumption.
  Qed.
  Lemma frames_grows w w' own own' o n fs : grows w w' -> own_grows w own own' -> frames_ok w own o n fs -> frames_ok w' own' o n fs.
  Proof. intros X G. destruct fs as [|f fs]; [auto|]. intros (A & B). split; [apply (frame_grows w w' own own')|apply (waiting_grows w w' own own')]; assumption. Qed.
  Record world_ok (w : world) (own : owner) : Prop := {
    ok_grows : grows w0 w;
    ok_keep : forall o n v, dict w0 o n = Some v -> dict w o n = Some v;
    ok_entry : forall o n v, dict w o n = Some v -> dict w0 o n = Some v \/
      exists b c k, v = VClass k /\ type_attr o n = Some (VWorker b c) /\ made w own o b c k;
    ok_own : forall k, length (classes w) <= k -> own k = None }.
  Lemma ok_class w own c : world_ok w own -> c < n0 -> the_class w c = the_class w0 c.
  Proof. intros I L. apply grows_class; [apply I|exact L]. Qed.
  Lemma ok_cached w own o n b c v : world_ok w own -> type_attr o n = Some (VWorker b c) -> dict w o n = Some v -> exists k, v = VClass k /\ made w own o b c k.
  Proof.
    intros I T H. destruct (ok_entry _ _ I _ _ _ H) as [H0 | (b' & c' & k & -> & T' & Wr)].
    - destruct (u_own_name _ _ _ _ (U o) _ _ _ T) as (_ & _ & Q). congruence.
    - rewrite T in T'. injection T' as <- <-. exists k. auto.
  Qed.
  Lemma frame_facts w own o f : frame_ok w own o f -> decorated o (f_cls f) = true /\ f_cls f < n0.
  Proof.
    intros F. assert (D : decorated o (f_cls f) = true) by (apply decorated_iff; exists (f_bound f); apply F). split; [exact D|apply (decorated_lt type_attr w0 rank U o), D].
  Qed.
  Lemma todo_base w own o f base todo : frame_ok w own o f -> f_todo f = base :: todo -> In base (bases_of (f_cls f)) /\ base < n0.
  Proof.
    intros F E. destruct (f_part _ _ _ _ F) as (l & P). rewrite E in P. assert (J : In base (bases_of (f_cls f))) by (rewrite P; apply in_or_app; right; left; reflexivity).
    destruct (frame_facts _ _ _ _ F) as (_ & L). pose proof (bases_lt w0 W0 _ _ L J). split; [exact J|lia].
  Qed.
  Lemma append_ok w own o f base todo x m : frame_ok w own o f -> f_todo f = base :: todo -> frame_ok w own o (append f x m).
  Proof.
    intros F E. split; cbn [append f_cls f_bound f_todo f_made]; [apply F| |].
    - destruct (f_part _ _ _ _ F) as (l & P). rewrite E in *. cbn [tl]. exists (l ++ [base]). rewrite <- app_assoc. exact P.
    - intros k H. destruct (f_top _ _ _ _ F k H) as (A & _). congruence.
  Qed.
  (** what a look at a base gives *)
  Lemma found_made w own o f base todo b c k : frame_ok w own o f -> f_todo f = base :: todo -> made w own o b c k ->
    found w f base (Some (VClass k)) = Ok (if c =? base then append f k true else append f base false).
  Proof. intros F E M. unfold found. destruct (m_bases _ _ _ _ _ _ M) as (t & ->). destruct (c =? base); reflexivity. Qed.
  Lemma found_old w own o f base todo v : world_ok w own -> frame_ok w own o f -> f_todo f = base :: todo -> name_of base <> name_of (f_cls f) ->
    (dict w0 o (name_of base) = Some v \/ type_attr o (name_of base) = Some v /\ forall b c, v <> VWorker b c) ->
    found w f base (Some v) = Ok (append f base false).
  Proof.
    intros I F E NN H. destruct v as [k|b c|]; try reflexivity. destruct (frame_facts _ _ _ _ F) as (D & L). destruct (todo_base _ _ _ _ _ _ F E) as (J & LB).
    assert (H' : dict w0 o (name_of base) = Some (VClass k) \/ type_attr o (name_of base) = Some (VClass k)) by (destruct H as [H|(H & _)]; auto).
    destruct (u_class _ _ _ _ (U o) _ _ _ D J NN H') as (LK & b' & l & Q & NE). unfold found. rewrite (ok_class _ _ _ I LK). fold (bases_of k). rewrite Q. destruct (Nat.eqb_spec b' base); [contradiction|reflexivity].
  Qed.
  Lemma enter_ok w own o n b c : world_ok w own -> type_attr o n = Some (VWorker b c) -> frame_ok w own o (enter w b c) /\ name_of c = n.
  Proof.
    intros I T. destruct (u_own_name _ _ _ _ (U o) _ _ _ T) as (L & N & _). split; [|exact N]. split; cbn [enter f_cls f_bound f_todo f_made]; [rewrite N; exact T| |discriminate].
    exists []. rewrite (ok_class _ _ _ I L). reflexivity.
  Qed.
  Lemma own_dec (w : world) (own : owner) k' : world_ok w own -> length (classes w) <= k' -> own k' = None.
  Proof. intros I. apply I. Qed.
  Definition set_own (own : owner) (k : cid) (x : oid * cid) : owner := fun k' => if k' =? k then Some x else own k'.

  (** One step of a read.  [own] is kept up with the classes made. *)
  Definition step_post (w : world) (own : owner) (o : oid) (n : str) (x : outcome) : Prop :=
    exists own', own_grows w own own' /\
    match x with
    | More w' fs' => grows w w' /\ world_ok w' own' /\ frames_ok w' own' o n fs'
    | Finished w' (Ok v) => grows w w' /\ world_ok w' own' /\ forall b c, type_attr o n = Some (VWorker b c) -> exists k, v = VClass k /\ made w' own' o b c k /\ dict w' o n <> None
    | Finished w' (Err e) => grows w w' /\ world_ok w' own' /\ (e = TypeError \/ e = AttributeError /\ type_attr o n = None)
    end.
  Lemma grows_store w o n v : grows w (World (classes w) (set_dict (dict w) o n v)).
  Proof. exists []. symmetry. apply app_nil_r. Qed.
  Lemma store_ok w own o b c k : world_ok w own -> type_attr o (name_of c) = Some (VWorker b c) -> made w own o b c k ->
    world_ok (World (classes w) (set_dict (dict w) o (name_of c) (VClass k))) own.
  Proof.
    intros I T M. set (w' := World _ _).
    assert (K : forall o b c k, made w own o b c k -> made w' own o b c k) by (intros; apply (made_grows w w' own own); [apply grows_store|intros ? ?; reflexivity|assumption]).
    split; [apply I| | |apply I].
    - intros o' n v H. unfold w'. cbn [dict]. destruct (set_dict_cases (dict w) o (name_of c) (VClass k) o' n) as [-> |(-> & ->)]; [apply I, H|].
      destruct (u_own_name _ _ _ _ (U o) _ _ _ T) as (_ & _ & Q). congruence.
    - intros o' n v H. unfold w' in H. cbn [dict] in H. destruct (set_dict_cases (dict w) o (name_of c) (VClass k) o' n) as [E|(-> & ->)].
      + rewrite E in H. destruct (ok_entry _ _ I _ _ _ H) as [Q|(b' & c' & k' & -> & T' & M')]; [left; exact Q|right]. exists b', c', k'. auto.
      + rewrite set_dict_same in H. injection H as <-. right. exists b, c, k. auto.
  Qed.
  Lemma step_read_ok w own o n fs : world_ok w own -> frames_ok w own o n fs -> step_post w own o n (step_read type_attr w o fs).
  Proof.
    intros I FS. destruct fs as [|f rest]; [destruct FS|]. destruct FS as (F & WT). destruct (frame_facts _ _ _ _ F) as (D & L). cbn [step_read]. rewrite (ok_class _ _ _ I L). fold (name_of (f_cls f)).
    assert (SAME : own_grows w own own) by (intros ? ?; reflexivity).
    destruct (f_todo f) as [|base todo] eqn:TD.
    - destruct (f_made f) as [k|] eqn:MD.
      + (* store *)
        destruct (f_top _ _ _ _ F k MD) as (_ & M). set (w' := World (classes w) _). assert (X : grows w w') by apply grows_store. assert (I' : world_ok w' own) by (apply (store_ok w own o (f_bound f)); [exact I|apply F|exact M]).
        pose proof (made_grows w w' own own _ _ _ _ X SAME M) as M'. destruct rest as [|g rest].
        * exists own. split; [exact SAME|]. split; [exact X|]. split; [exact I'|]. inversion WT as [? E|]; subst. intros b c T. rewrite (f_attr _ _ _ _ F) in T. injection T as <- <-. exists k. split; [reflexivity|]. split; [exact M'|].
          unfold w'. cbn [dict]. rewrite set_dict_same. discriminate.
        * apply (waiting_grows w w' own own _ _ _ _ X SAME) in WT. inversion WT as [|? ? ? base todo' G MG TG N1 N2 WT']; subst. rewrite TG, (found_made w' own o g base todo' (f_bound f) (f_cls f) k G TG M'). cbn [continue].
          exists own. split; [exact SAME|]. split; [exact X|]. split; [exact I'|]. destruct (f_cls f =? base); (split; [apply (append_ok w' own o g base todo' _ _ G TG)|exact WT']).
      + (* make *)
        set (bs := if f_multi f then f_cls f :: f_bases f else [f_cls f]). destruct (linearise w bs) as [mro|].
        2: { exists own. split; [exact SAME|]. split; [apply grows_refl|]. auto. }
        set (k := length (classes w)). set (cl := Cls (name_of (f_cls f)) bs (k :: mro) (if f_bound f then BoundTo o (f_cls f) else UnboundIn (f_cls f))). set (w' := World (classes w ++ [cl]) (dict w)).
        assert (X : grows w w') by (exists [cl]; reflexivity). set (own' := set_own own k (o, f_cls f)).
        assert (SAME' : own_grows w own own'). { intros k' LK. unfold own', set_own. destruct (Nat.eqb_spec k' k) as [-> |]; [unfold k in LK; lia|reflexivity]. }
        assert (CL : the_class w' k = cl) by (unfold the_class, w', k; cbn [classes]; rewrite app_nth2, Nat.sub_diag by lia; reflexivity).
        assert (M : made w' own' o (f_bound f) (f_cls f) k).
        { split.
          - split; [apply (grows_len w0 w), I|]. unfold w'. cbn [classes]. rewrite app_length. cbn [length]. unfold k. lia.
          - rewrite CL. reflexivity.
          - rewrite CL. reflexivity.
          - rewrite CL. unfold cl, bs. cbn [c_bases]. destruct (f_multi f); eexists; reflexivity.
          - unfold own', set_own. rewrite Nat.eqb_refl. reflexivity. }
        exists own'. split; [exact SAME'|]. split; [exact X|]. split.
        * split; [apply (grows_trans w0 w); [apply I|exact X]|apply I| |].
          -- intros o' n' v H. destruct (ok_entry _ _ I _ _ _ H) as [Q|(b' & c' & k' & -> & T' & M')]; [left; exact Q|right]. exists b', c', k'. split; [reflexivity|]. split; [exact T'|]. apply (made_grows w w' own own'); assumption.
          -- intros k' LK. unfold w' in LK. cbn [classes] in LK. rewrite app_length in LK. cbn [length] in LK. unfold own', set_own. destruct (Nat.eqb_spec k' k) as [-> |]; [unfold k in LK; lia|]. apply I. lia.
        * split; [|apply (waiting_grows w w' own own'); assumption]. split; cbn [f_cls f_bound f_todo f_made]; [apply F| |].
          -- destruct (f_part _ _ _ _ F) as (l & P). rewrite TD in P. exists l. exact P.
          -- intros k' Q. injection Q as <-. auto.
    - destruct (todo_base _ _ _ _ _ _ F TD) as (J & LB). rewrite (ok_class _ _ _ I LB). fold (name_of base).
      assert (STAY : forall x m, step_post w own o n (More w (append f x m :: rest))).
      { intros x m. exists own. split; [exact SAME|]. split; [apply grows_refl|]. split; [exact I|]. split; [apply (append_ok w own o f base todo); assumption|exact WT]. }
      destruct (str_eqb (name_of base) (name_of (f_cls f))) eqn:EN; [apply STAY|].
      assert (NN : name_of base <> name_of (f_cls f)) by (intros Q; apply str_eqb_eq in Q; congruence).
      destruct (dict w o (name_of base)) as [v|] eqn:ED.
      + destruct (ok_entry _ _ I _ _ _ ED) as [H0|(d & c' & k & -> & T & M)].
        * rewrite (found_old w own o f base todo v I F TD NN (or_introl H0)). apply STAY.
        * rewrite (found_made w own o f base todo d c' k F TD M). cbn [continue]. destruct (c' =? base); apply STAY.
      + destruct (type_attr o (name_of base)) as [v|] eqn:T; [|apply STAY]. destruct v as [k|d c'|].
        * rewrite (found_old w own o f base todo (VClass k) I F TD NN); [apply STAY|]. right. split; [exact T|discriminate].
        * destruct (enter_ok w own o _ d c' I T) as (G & N). exists own. split; [exact SAME|]. split; [apply grows_refl|]. split; [exact I|]. split; [exact G|].
          assert (MN : f_made f = None) by (destruct (f_made f) as [k|] eqn:MD; [destruct (f_top _ _ _ _ F k MD); congruence|reflexivity]).
          apply (wait_cons _ _ _ _ _ _ _ base todo); auto.
        * apply STAY.
  Qed.
  Lemma start_read_ok w own o n : world_ok w own -> step_post w own o n (start_read type_attr w o n).
  Proof.
    intros I. unfold start_read. assert (SAME : own_grows w own own) by (intros ? ?; reflexivity). destruct (dict w o n) as [v|] eqn:E.
    - exists own. split; [exact SAME|]. split; [apply grows_refl|]. split; [exact I|]. intros b c T. destruct (ok_cached _ _ _ _ _ _ _ I T E) as (k & -> & M). exists k. split; [reflexivity|]. split; [exact M|congruence].
    - destruct (type_attr o n) as [[k|b c|]|] eqn:T.
      + exists own. split; [exact SAME|]. split; [apply grows_refl|]. split; [exact I|]. intros; congruence.
      + destruct (enter_ok w own o n b c I T) as (F & N). exists own. split; [exact SAME|]. split; [apply grows_refl|]. split; [exact I|]. split; [exact F|]. constructor. exact N.
      + exists own. split; [exact SAME|]. split; [apply grows_refl|]. split; [exact I|]. intros; congruence.
      + exists own. split; [exact SAME|]. split; [apply grows_refl|]. split; [exact I|]. auto.
  Qed.

  Definition sys_ok (s : system) (own : owner) : Prop := world_ok (s_world s) own /\ forall t r, s_reading s t = Some r -> frames_ok (s_world s) own (r_outer r) (r_name r) (r_frames r).
  (** what the end of a read is *)
  Definition end_ok (w : world) (own : owner) (e : ending) : Prop :=
    let '(Ended _ o n r) := e in forall b c, type_attr o n = Some (VWorker b c) ->
      match r with Ok v => exists k, v = VClass k /\ made w own o b c k | Err x => x = TypeError end.
  Lemma end_grows w w' own own' e : grows w w' -> own_grows w own own' -> end_ok w own e -> end_ok w' own' e.
  Proof.
    intros X G. destruct e as [t o n r]. intros H b c T. specialize (H b c T). destruct r as [v|x]; [|exact H]. destruct H as (k & -> & M). exists k. split; [reflexivity|]. apply (made_grows w w' own own'); assumption.
  Qed.
  Lemma set_reading_same r t x : set_reading r t x t = x.
  Proof. unfold set_reading. rewrite Nat.eqb_refl. reflexivity. Qed.
  Lemma set_reading_other r t x t' : t' <> t -> set_reading r t x t' = r t'.
  Proof. intros N. unfold set_reading. destruct (Nat.eqb_spec t' t); [contradiction|reflexivity]. Qed.
  Lemma settle_ok s own t o n x : sys_ok s own -> step_post (s_world s) own o n x ->
    exists own', own_grows (s_world s) own own' /\ grows (s_world s) (s_world (fst (settle s t o n x))) /\ sys_ok (fst (settle s t o n x)) own' /\
      Forall (end_ok (s_world (fst (settle s t o n x))) own') (snd (settle s t o n x)).
  Proof.
    intros (I & R) (own' & G & H). exists own'. split; [exact G|]. destruct x as [w' fs'|w' [v|e]]; cbn [settle fst snd s_world].
    - destruct H as (X & I' & F). split; [exact X|]. split; [|constructor]. split; [exact I'|]. cbn [s_reading s_world]. intros t' r E. destruct (Nat.eq_dec t' t) as [-> |NE].
      + rewrite set_reading_same in E. injection E as <-. exact F.
      + rewrite set_reading_other in E by exact NE. apply (frames_grows (s_world s) w' own own'); [exact X|exact G|apply (R t' r E)].
    - destruct H as (X & I' & F). split; [exact X|]. split.
      + split; [exact I'|]. cbn [s_reading s_world]. intros t' r E. destruct (Nat.eq_dec t' t) as [-> |NE]; [rewrite set_reading_same in E; discriminate|].
        rewrite set_reading_other in E by exact NE. apply (frames_grows (s_world s) w' own own'); [exact X|exact G|apply (R t' r E)].
      + constructor; [|constructor]. intros b c T. destruct (F b c T) as (k & E & M & _). exists k. auto.
    - destruct H as (X & I' & F). split; [exact X|]. split.
      + split; [exact I'|]. cbn [s_reading s_world]. intros t' r E. destruct (Nat.eq_dec t' t) as [-> |NE]; [rewrite set_reading_same in E; discriminate|].
        rewrite set_reading_other in E by exact NE. apply (frames_grows (s_world s) w' own own'); [exact X|exact G|apply (R t' r E)].
      + constructor; [|constructor]. intros b c T. destruct F as [F|(F & Q)]; [exact F|congruence].
  Qed.
  Lemma act_ok a s own : sys_ok s own ->
    exists own', own_grows (s_world s) own own' /\ grows (s_world s) (s_world (fst (act a s))) /\ sys_ok (fst (act a s)) own' /\ Forall (end_ok (s_world (fst (act a s))) own') (snd (act a s)).
  Proof.
    intros S. assert (NO : exists own', own_grows (s_world s) own own' /\ grows (s_world s) (s_world s) /\ sys_ok s own' /\ Forall (end_ok (s_world s) own') []).
    { exists own. split; [intros ? ?; reflexivity|]. split; [apply grows_refl|]. split; [exact S|constructor]. }
    destruct a as [t o n|t|name bases]; cbn [BthrModel.act].
    - destruct (s_reading s t) as [r|] eqn:E; [exact NO|]. apply settle_ok; [exact S|]. apply start_read_ok, S.
    - destruct (s_reading s t) as [r|] eqn:E; [|exact NO]. apply settle_ok; [exact S|]. apply step_read_ok; [apply S|apply (proj2 S t r E)].
    - destruct (linearise (s_world s) bases) as [mro|]; [|exact NO]. cbn [fst snd s_world]. set (w := s_world s). set (w' := World _ _). exists own.
      assert (SAME : own_grows w own own) by (intros ? ?; reflexivity). assert (X : grows w w') by (eexists; reflexivity). destruct S as (I & R).
      split; [exact SAME|]. split; [exact X|]. split; [|constructor]. split; cbn [s_world s_reading].
      + split; [apply (grows_trans w0 w); [apply I|exact X]|apply I| |].
        * intros o' n' v H. destruct (ok_entry _ _ I _ _ _ H) as [Q|(b' & c' & k' & -> & T' & M')]; [left; exact Q|right]. exists b', c', k'. split; [reflexivity|]. split; [exact T'|]. apply (made_grows w w' own own); assumption.
        * intros k' LK. unfold w' in LK. cbn [classes] in LK. rewrite app_length in LK. apply I. unfold w in LK. lia.
      + intros t r E. apply (frames_grows w w' own own); [exact X|exact SAME|apply (R t r E)].
  Qed.
  Lemma own_grows_trans w w' own own1 own2 : grows w w' -> own_grows w own own1 -> own_grows w' own1 own2 -> own_grows w own own2.
  Proof. intros X A B k L. pose proof (grows_len _ _ X). rewrite (B k) by lia. apply A, L. Qed.
  Lemma exec_ok : forall l s own, sys_ok s own ->
    exists own', own_grows (s_world s) own own' /\ grows (s_world s) (s_world (fst (exec l s))) /\ sys_ok (fst (exec l s)) own' /\ Forall (end_ok (s_world (fst (exec l s))) own') (snd (exec l s)).
  Proof.
    induction l as [|a l IH]; intros s own S; cbn [BthrModel.exec].
    { exists own. split; [intros ? ?; reflexivity|]. split; [apply grows_refl|]. split; [exact S|constructor]. }
    destruct (act_ok a s own S) as (own1 & G1 & X1 & S1 & E1). destruct (act a s) as [s1 e1]. cbn [fst snd] in *. destruct (IH s1 own1 S1) as (own2 & G2 & X2 & S2 & E2). destruct (exec l s1) as [s2 e2]. cbn [fst snd] in *.
    exists own2. split; [apply (own_grows_trans _ (s_world s1) own own1); assumption|]. split; [apply (grows_trans _ (s_world s1)); assumption|]. split; [exact S2|]. apply Forall_app. split; [|exact E2].
    apply (Forall_impl _ (fun e => end_grows (s_world s1) (s_world s2) own1 own2 e X2 G2) E1).
  Qed.
  Lemma idle_ok : sys_ok (idle w0) (fun _ => None).
  Proof. split; [|discriminate]. split; [apply grows_refl|auto|auto|auto]. Qed.
  Lemma reach_ok l : exists own, sys_ok (fst (exec l (idle w0))) own /\ Forall (end_ok (s_world (fst (exec l (idle w0)))) own) (snd (exec l (idle w0))).
  Proof. destruct (exec_ok l _ _ idle_ok) as (own & _ & _ & A & B). exists own. auto. Qed.
  Lemma exec_app l1 l2 s : exec (l1 ++ l2) s = let '(s1, e1) := exec l1 s in let '(s2, e2) := exec l2 s1 in (s2, e1 ++ e2).
  Proof.
    revert s. induction l1 as [|a l1 IH]; intros s; cbn [app BthrModel.exec]; [destruct (exec l2 s); reflexivity|]. destruct (act a s) as [s1 e1]. rewrite IH. destruct (exec l1 s1) as [s2 e2]. destruct (exec l2 s2) as [s3 e3]. rewrite app_assoc. reflexivity.
  Qed.
End World.
