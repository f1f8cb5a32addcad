(** Proofs about bound inner classes in several threads: a class whose bases have been read before. *)
From Verif Require Import PyStrProof BicModel BicSpec BicProof BicProof2 BthrModel BthrSpec BthrProof BthrProof2 BthrProof3.

Section World.
  Context (type_attr : oid -> str -> option value) (w0 : world) (rank : oid -> cid -> nat).
  Hypothesis W0 : forall c, c < length (classes w0) -> class_ok w0 c.
  Hypothesis U : forall o, usage type_attr w0 o (rank o).
  Context (o : oid).
  Notation name_of := (name_of w0).
  Notation bases_of := (bases_of w0).
  Notation mro_of := (mro_of w0).
  Notation decorated := (decorated type_attr w0).
  Notation n0 := (length (classes w0)).
  Notation exec := (exec type_attr).
  Notation act := (act type_attr).
  Notation sys_ok := (sys_ok type_attr w0).
  Notation frame_ok := (frame_ok type_attr w0).
  Notation frames_ok := (frames_ok type_attr w0).
  Notation waiting := (waiting type_attr w0).
  Notation world_ok := (world_ok type_attr w0).
  Notation doubled := (doubled type_attr w0).
  Notation inh := (inh type_attr w0).
  Notation no_frame := (no_frame w0).

  (** the start: the world w1, in which the bases of c have been read *)
  Context (w1 : world) (own1 : owner) (b : bool) (c : cid).
  Hypothesis OK1 : world_ok w1 own1.
  Hypothesis E1 : entries type_attr w0 o w1.
  Hypothesis TC : type_attr o (name_of c) = Some (VWorker b c).
  Definition cached_bases (w : world) : Prop := forall base d c', In base (bases_of c) -> name_of base <> name_of c -> type_attr o (name_of base) = Some (VWorker d c') -> dict w o (name_of base) <> None.
  Hypothesis H1 : cached_bases w1.

  Lemma DC : decorated o c = true. Proof. apply decorated_iff. exists b. exact TC. Qed.
  Lemma LC : c < n0. Proof. apply (decorated_lt type_attr w0 rank U o), DC. Qed.
  (** the names of decorated classes among the names of the bases *)
  Definition base_name (m : str) : Prop := exists base d c', In base (bases_of c) /\ name_of base = m /\ m <> name_of c /\ type_attr o m = Some (VWorker d c').
  (** what a class made for c is like *)
  Definition shape (w : world) (k : cid) : Prop :=
    n0 <= k < length (classes w) /\ exists r r', mro_of c = c :: r /\ c_mro (the_class w k) = k :: c :: r' /\ doubled w1 o r r'.
  Lemma shape_grows w w' k : grows w w' -> shape w k -> shape w' k.
  Proof. intros X (L & r & r' & A & B & C). pose proof (grows_len _ _ X). split; [lia|]. exists r, r'. rewrite (grows_class w w' k X) by lia. auto. Qed.
  Definition okf (w : world) (f : frame) : Prop :=
    (exists l, bases_of c = l ++ f_todo f /\ Forall2 (inh w1 o) l (f_bases f) /\ f_multi f = existsb (decorated o) l) /\ forall k, f_made f = Some k -> shape w k.
  Definition okfs (w : world) (fs : list frame) : Prop := (forall f, In f fs -> f_cls f = c -> okf w f) /\ forall f, In f (tl fs) -> f_cls f <> c.
  Lemma okf_grows w w' f : grows w w' -> okf w f -> okf w' f.
  Proof. intros X (A & B). split; [exact A|]. intros k H. apply (shape_grows w w' k X), B, H. Qed.
  Lemma okfs_grows w w' fs : grows w w' -> okfs w fs -> okfs w' fs.
  Proof. intros X (A & B). split; [|exact B]. intros f J E. apply (okf_grows w w' f X), A; assumption. Qed.
  Record settled_world (w : world) : Prop := {
    sw_grows : grows w1 w;
    sw_same : forall m, base_name m -> dict w o m = dict w1 o m;
    sw_entry : forall k, dict w o (name_of c) = Some (VClass k) -> shape w k }.
  (** the linearisation *)
  Lemma inv_grows w w' : inv type_attr w0 w -> grows w w' -> inv type_attr w0 (World (classes w') (dict w)).
  Proof.
    intros I (e & E). assert (X : ext w (World (classes w') (dict w))) by (split; [exists e; exact E|auto]). split; [apply (ext_trans w0 w); [apply I|exact X]| |apply I].
    intros o' m v H. cbn [dict] in H. destruct (i_entry _ _ _ I _ _ _ H) as [Q|(d & c' & k & -> & T & Wr)]; [left; exact Q|]. right. exists d, c', k. split; [reflexivity|]. split; [exact T|]. apply (wrapped_ext type_attr w0 w); assumption.
  Qed.
  Lemma linear w l : grows w1 w -> Forall2 (inh w1 o) (bases_of c) l ->
    exists r r', mro_of c = c :: r /\ doubled w1 o r r' /\ linearise w (if existsb (decorated o) (bases_of c) then c :: l else [c]) = Some (c :: r').
  Proof.
    intros X F. pose proof (only_inv type_attr w0 rank U o w1 own1 OK1 E1) as I1. pose proof (inv_grows (only w0 o w1) w I1 X) as I. set (w2 := World (classes w) (dict (only w0 o w1))) in *.
    destruct (linearise_wrapper type_attr w0 rank W0 U w2 o I c l DC) as (r & r' & A & B & C).
    { apply (Forall2_impl (inh w1 o)); [|exact F]. intros x y H. unfold BicProof2.inh in *. unfold w2. cbn [dict]. change ((fun o' n => if o' =? o then dict w1 o n else dict w0 o' n) o) with (dict (only w0 o w1) o). rewrite (only_dict w0 o w1). exact H. }
    exists r, r'. split; [exact A|]. split; [|exact C]. apply (doubled_same type_attr w0 o w2); [|exact B]. intros m. unfold w2. cbn [dict]. change ((fun o' n => if o' =? o then dict w1 o n else dict w0 o' n) o) with (dict (only w0 o w1) o). rewrite (only_dict w0 o w1). reflexivity.
  Qed.
  Lemma okf_append w own f base todo x m : frame_ok w own o f -> f_cls f = c -> f_todo f = base :: todo -> okf w f -> inh w1 o base x -> m = decorated o base -> okf w (append f x m).
  Proof.
    intros F EC TD ((l & B1 & B2 & B3) & C) H ->. split; cbn [append f_cls f_todo f_bases f_multi f_made].
    - exists (l ++ [base]). rewrite TD in *. cbn [tl]. split; [rewrite <- app_assoc; exact B1|]. split; [apply Forall2_app; [exact B2|constructor; [exact H|constructor]]|]. rewrite existsb_app, B3. cbn [existsb]. rewrite orb_false_r. reflexivity.
    - exact C.
  Qed.
  (** one step of a read of o.  If the read is of c itself, c is the only frame. *)
  Definition settle_post (n : str) (w : world) (x : outcome) : Prop :=
    match x with
    | More w' fs' => okfs w' fs' /\ forall k, dict w' o (name_of c) = Some (VClass k) -> shape w' k
    | Finished w' r => (n = name_of c -> exists k, r = Ok (VClass k) /\ shape w' k) /\ forall k, dict w' o (name_of c) = Some (VClass k) -> shape w' k
    end.
  Lemma waiting_last w own n fs c' : waiting w own o n c' fs -> n = name_of c -> decorated o c' = true -> (forall f, In f fs -> f_cls f <> c) -> fs = [] /\ c' = c.
  Proof.
    intros H EN. induction H as [c' E|c' f fs base todo F M TD N1 N2 H IH]; intros D NC.
    - split; [reflexivity|]. apply (decorated_name type_attr w0 o); [exact D|exact DC|congruence].
    - destruct (frame_facts _ _ _ U _ _ _ _ F) as (D' & _). destruct IH as (_ & Q); [exact D'|intros g J; apply NC; right; exact J|]. destruct (NC f (or_introl eq_refl) Q).
  Qed.
  Lemma step_settled w own n fs : world_ok w own -> settled_world w -> frames_ok w own o n fs -> okfs w fs -> settle_post n w (step_read type_attr w o fs).
  Proof.
    intros I SW FS (OK & NC). destruct fs as [|f rest]; [destruct FS|]. destruct FS as (F & WT). cbn [tl] in NC. destruct (frame_facts _ _ _ U _ _ _ _ F) as (D & L). cbn [step_read]. rewrite (ok_class _ _ _ _ _ I L). fold (name_of (f_cls f)).
    assert (LAST : n = name_of c -> rest = [] /\ f_cls f = c) by (intros EN; apply (waiting_last w own n rest _ WT EN D NC)).
    assert (CONT : forall w' f' rest', grows w w' -> (forall k, dict w' o (name_of c) = Some (VClass k) -> shape w' k) -> (f_cls f' = c -> okf w' f') -> (forall g, In g rest' -> f_cls g <> c) -> settle_post n w (More w' (f' :: rest'))).
    { intros w' f' rest' X E P Q. split; [|exact E]. split; [|exact Q]. intros g [<- |J] EC; [apply P, EC|]. destruct (Q g J EC). }
    destruct (f_todo f) as [|base todo] eqn:TD.
    - destruct (f_made f) as [k|] eqn:MD.
      + (* store *)
        destruct (f_top _ _ _ _ _ _ F k MD) as (_ & M). set (w' := World (classes w) _). assert (X : grows w w') by apply grows_store.
        assert (EN : forall k', dict w' o (name_of c) = Some (VClass k') -> shape w' k').
        { intros k' H. unfold w' in H. cbn [dict] in H. destruct (set_dict_cases (dict w) o (name_of (f_cls f)) (VClass k) o (name_of c)) as [Q|(_ & Q)].
          - rewrite Q in H. apply (shape_grows w w' k' X), (sw_entry _ SW), H.
          - rewrite <- Q, set_dict_same in H. injection H as <-. assert (EC : f_cls f = c) by (symmetry; apply (decorated_name type_attr w0 o); [exact DC|exact D|exact Q]). apply (shape_grows w w' k X). apply (proj2 (OK f (or_introl eq_refl) EC) k MD). }
        destruct rest as [|g rest].
        * split; [|exact EN]. intros Q. exists k. split; [reflexivity|]. destruct (LAST Q) as (_ & EC). apply (shape_grows w w' k X). apply (proj2 (OK f (or_introl eq_refl) EC) k MD).
        * inversion WT as [|? ? ? base todo' FG MG TG N1 N2 WT']; subst. rewrite TG.
          assert (M' : made w0 w' own o (f_bound f) (f_cls f) k) by (apply (made_grows w0 w w' own own); [apply grows_store|intros ? ?; reflexivity|exact M]).
          assert (FG' : frame_ok w' own o g) by (apply (frame_grows type_attr w0 w w' own own); [apply grows_store|intros ? ?; reflexivity|exact FG]).
          rewrite (found_made type_attr w0 w' own o g base todo' _ _ k FG' TG M'). cbn [continue]. pose proof (NC g (or_introl eq_refl)) as NG. destruct (f_cls f =? base); (apply CONT; [exact X|exact EN|cbn [append f_cls]; intros Q; contradiction|intros h J; apply NC; right; exact J]).
      + (* make *)
        assert (FAIL : f_cls f <> c -> settle_post n w (Finished w (Err TypeError))).
        { intros Q. split; [intros EN; destruct (LAST EN); contradiction|apply (sw_entry _ SW)]. }
        assert (MAKE : forall mro, linearise w (if f_multi f then f_cls f :: f_bases f else [f_cls f]) = Some mro -> (f_cls f = c -> exists r r', mro_of c = c :: r /\ doubled w1 o r r' /\ mro = c :: r') -> forall cl, c_mro cl = length (classes w) :: mro ->
                  settle_post n w (More (World (classes w ++ [cl]) (dict w)) (Frame (f_bound f) (f_cls f) [] (f_bases f) (f_multi f) (Some (length (classes w))) :: rest))).
        { intros mro LI P cl CM. set (w' := World _ _). assert (X : grows w w') by (exists [cl]; reflexivity). apply CONT; [exact X| | |exact NC].
          - intros k H. apply (shape_grows w w' k X), (sw_entry _ SW), H.
          - cbn [f_cls]. intros EC. destruct (OK f (or_introl eq_refl) EC) as (A & _). rewrite TD in A. split; [exact A|]. cbn [f_made]. intros k Q. injection Q as <-. destruct (P EC) as (r & r' & P1 & P2 & ->).
            split; [split; [apply (grows_len w0 w), I|unfold w'; cbn [classes]; rewrite app_length; cbn [length]; lia]|]. exists r, r'. split; [exact P1|]. split; [|exact P2]. unfold the_class, w'. cbn [classes]. rewrite app_nth2, Nat.sub_diag by lia. exact CM. }
        destruct (Nat.eq_dec (f_cls f) c) as [EC|NEC].
        * destruct (OK f (or_introl eq_refl) EC) as ((l & B1 & B2 & B3) & _). rewrite TD, app_nil_r in B1. subst l. destruct (linear w (f_bases f) (sw_grows _ SW) B2) as (r & r' & A & B & C). rewrite <- B3, <- EC in C. rewrite C. apply (MAKE _ C); [|reflexivity]. intros _. rewrite EC. exists r, r'. auto.
        * destruct (linearise w (if f_multi f then f_cls f :: f_bases f else [f_cls f])) as [mro|] eqn:LI; [|apply FAIL, NEC]. apply (MAKE mro eq_refl); [intros Q; contradiction|reflexivity].
    - assert (STAY : forall x m, (f_cls f = c -> inh w1 o base x /\ m = decorated o base) -> settle_post n w (More w (append f x m :: rest))).
      { intros x m P. apply CONT; [apply grows_refl|apply (sw_entry _ SW)| |exact NC]. cbn [append f_cls]. intros EC. destruct (P EC) as (P1 & P2). apply (okf_append w own f base todo); auto. apply (OK f); [left; reflexivity|exact EC]. }
      destruct (todo_base _ _ _ W0 U _ _ _ _ _ _ F TD) as (J & LB). rewrite (ok_class _ _ _ _ _ I LB). fold (name_of base).
      assert (PLAIN : decorated o base = false -> settle_post n w (More w (append f base false :: rest))).
      { intros DB. apply STAY. intros _. unfold BicProof2.inh. rewrite DB. auto. }
      destruct (str_eqb (name_of base) (name_of (f_cls f))) eqn:EN.
      { apply str_eqb_eq in EN. apply PLAIN. destruct (decorated o base) eqn:DB; [|reflexivity]. pose proof (decorated_name type_attr w0 o _ _ DB D EN). pose proof (bases_lt w0 W0 _ _ L J). lia. }
      assert (NN : name_of base <> name_of (f_cls f)) by (intros Q; apply str_eqb_eq in Q; congruence).
      assert (BN : f_cls f = c -> forall d c', type_attr o (name_of base) = Some (VWorker d c') -> dict w o (name_of base) = dict w1 o (name_of base) /\ dict w1 o (name_of base) <> None).
      { intros EC d c' T. rewrite EC in *. split; [apply (sw_same _ SW); exists base, d, c'; auto|apply (H1 base d c'); assumption]. }
      destruct (dict w o (name_of base)) as [v|] eqn:ED.
      + destruct (ok_entry _ _ _ _ I _ _ _ ED) as [H0|(d & c' & k & -> & T & M)].
        * rewrite (found_old type_attr w0 rank W0 U w own o f base todo v I F TD NN (or_introl H0)). apply PLAIN. destruct (decorated o base) eqn:DB; [|reflexivity]. rewrite (decorated_dict type_attr w0 rank U o base DB) in H0. discriminate.
        * rewrite (found_made type_attr w0 w own o f base todo d c' k F TD M). cbn [continue]. destruct (Nat.eqb_spec c' base) as [-> |NE]; apply STAY; intros EC; destruct (BN EC _ _ T) as (Q & _).
          -- assert (DB : decorated o base = true) by (apply decorated_iff; exists d; exact T). unfold BicProof2.inh. rewrite DB. auto.
          -- assert (DB : decorated o base = false) by (unfold BicSpec.decorated; rewrite T; apply Nat.eqb_neq, NE). unfold BicProof2.inh. rewrite DB. auto.
      + destruct (type_attr o (name_of base)) as [v|] eqn:T.
        2: { apply PLAIN. unfold BicSpec.decorated. rewrite T. reflexivity. }
        destruct v as [k|d c'|].
        * rewrite (found_old type_attr w0 rank W0 U w own o f base todo (VClass k) I F TD NN); [|right; split; [exact T|discriminate]]. apply PLAIN. unfold BicSpec.decorated. rewrite T. reflexivity.
        * assert (NEC : f_cls f <> c) by (intros EC; destruct (BN EC _ _ eq_refl) as (Q1 & Q2); congruence).
          destruct (u_own_name _ _ _ _ (U o) _ _ _ T) as (LC' & NC' & _). apply CONT; [apply grows_refl|apply (sw_entry _ SW)| |].
          -- cbn [enter f_cls]. intros ->. split; cbn [enter f_todo f_bases f_multi f_made]; [|discriminate]. exists []. rewrite (ok_class _ _ _ _ _ I LC'). fold (bases_of c). split; [reflexivity|]. split; [constructor|reflexivity].
          -- intros g [<- |K]; [exact NEC|apply NC, K].
        * apply PLAIN. unfold BicSpec.decorated. rewrite T. reflexivity.
  Qed.
  Lemma start_settled w own n : world_ok w own -> settled_world w -> settle_post n w (start_read type_attr w o n).
  Proof.
    intros I SW. unfold start_read. destruct (dict w o n) as [v|] eqn:H.
    - split; [|apply (sw_entry _ SW)]. intros ->. destruct (ok_cached _ _ _ U _ _ _ _ _ _ _ I TC H) as (k & -> & M). exists k. split; [reflexivity|]. apply (sw_entry _ SW), H.
    - destruct (type_attr o n) as [[k|d c'|]|] eqn:T; cbn [settle_post].
      2: { split; [|apply (sw_entry _ SW)]. split; [|intros f []]. intros f [<- |[]]. cbn [enter f_cls]. intros ->. split; cbn [enter f_todo f_bases f_multi f_made]; [|discriminate]. exists []. rewrite (ok_class _ _ _ _ _ I LC). fold (bases_of c). split; [reflexivity|]. split; [constructor|reflexivity]. }
      all: split; [|apply (sw_entry _ SW)]; intros ->; congruence.
  Qed.
  Record settled (s : system) : Prop := {
    st_world : settled_world (s_world s);
    st_none : forall m, base_name m -> no_frame s o m;
    st_frames : forall t r, s_reading s t = Some r -> r_outer r = o -> okfs (s_world s) (r_frames r) }.
  Definition end_settled (w : world) (e : ending) : Prop := let '(Ended _ o' n r) := e in o' = o -> n = name_of c -> exists k, r = Ok (VClass k) /\ shape w k.
  Lemma end_settled_grows w w' e : grows w w' -> end_settled w e -> end_settled w' e.
  Proof. intros X. destruct e as [t o' n r]. intros H EO EN. destruct (H EO EN) as (k & Q & S). exists k. split; [exact Q|apply (shape_grows w w' k X S)]. Qed.
  Lemma act_settled a s own : sys_ok s own -> settled s -> settled (fst (act a s)) /\ Forall (end_settled (s_world (fst (act a s)))) (snd (act a s)).
  Proof.
    intros S [SW NO FR]. destruct (act_ok type_attr w0 rank W0 U a s own S) as (own' & _ & X & S' & _).
    assert (BS : forall m, base_name m -> dict (s_world (fst (act a s))) o m = dict w1 o m /\ no_frame (fst (act a s)) o m).
    { intros m B. pose proof B as B'. destruct B as (base & d & c' & J & <- & NE & T). pose proof (H1 base d c' J NE T) as HIT. pose proof (sw_same _ SW _ B') as Q. destruct (dict w1 o (name_of base)) as [v|] eqn:EV; [|congruence].
      destruct (act_stable type_attr w0 rank W0 U a s own o (name_of base) v S Q (NO _ B')) as (P1 & P2 & _). auto. }
    assert (GOAL : (forall k, dict (s_world (fst (act a s))) o (name_of c) = Some (VClass k) -> shape (s_world (fst (act a s))) k) ->
                   (forall t r, s_reading (fst (act a s)) t = Some r -> r_outer r = o -> okfs (s_world (fst (act a s))) (r_frames r)) -> settled (fst (act a s))).
    { intros P Q. split; [|intros m B; apply BS, B|exact Q]. split; [apply (grows_trans w1 (s_world s)); [apply SW|exact X]|intros m B; apply BS, B|exact P]. }
    assert (OLD : forall t r, s_reading s t = Some r -> r_outer r = o -> okfs (s_world (fst (act a s))) (r_frames r)).
    { intros t r H EO. apply (okfs_grows (s_world s) _ _ X). apply (FR t r H EO). }
    assert (OLDE : (forall m, dict (s_world (fst (act a s))) o m = dict (s_world s) o m) -> forall k, dict (s_world (fst (act a s))) o (name_of c) = Some (VClass k) -> shape (s_world (fst (act a s))) k).
    { intros Q k H. rewrite Q in H. apply (shape_grows (s_world s) _ k X), (sw_entry _ SW), H. }
    (* a read of o *)
    assert (OWN : forall t n x, act a s = settle s t o n x -> settle_post n (s_world s) x -> settled (fst (act a s)) /\ Forall (end_settled (s_world (fst (act a s)))) (snd (act a s))).
    { intros t n x Q P. rewrite Q in *. destruct x as [w' fs'|w' r']; cbn [settle fst snd s_world s_reading] in *; destruct P as (P1 & P2).
      - split; [|constructor]. apply GOAL; [exact P2|]. intros t' r' H EO. destruct (Nat.eq_dec t' t) as [-> |NT]; [rewrite set_reading_same in H; injection H as <-; exact P1|]. rewrite set_reading_other in H by exact NT. apply (OLD t' r' H EO).
      - split; [|constructor; [|constructor]; intros _ EN; apply P1, EN]. apply GOAL; [exact P2|]. intros t' r0 H EO. destruct (Nat.eq_dec t' t) as [-> |NT]; [rewrite set_reading_same in H; discriminate|]. rewrite set_reading_other in H by exact NT. apply (OLD t' r0 H EO). }
    (* a read of another object *)
    assert (OTHER : forall t o' n x, o' <> o -> act a s = settle s t o' n x -> match x with More w' _ | Finished w' _ => forall m, dict w' o m = dict (s_world s) o m end -> settled (fst (act a s)) /\ Forall (end_settled (s_world (fst (act a s)))) (snd (act a s))).
    { intros t o' n x NE Q P. rewrite Q in *. destruct x as [w' fs'|w' r']; cbn [settle fst snd s_world s_reading] in *.
      - split; [|constructor]. apply GOAL; [apply OLDE, P|]. intros t' r' H EO. destruct (Nat.eq_dec t' t) as [-> |NT]; [rewrite set_reading_same in H; injection H as <-; cbn [r_outer] in EO; congruence|]. rewrite set_reading_other in H by exact NT. apply (OLD t' r' H EO).
      - split; [|constructor; [|constructor]; intros EO; congruence]. apply GOAL; [apply OLDE, P|]. intros t' r0 H EO. destruct (Nat.eq_dec t' t) as [-> |NT]; [rewrite set_reading_same in H; discriminate|]. rewrite set_reading_other in H by exact NT. apply (OLD t' r0 H EO). }
    assert (SAME : act a s = (s, []) -> settled (fst (act a s)) /\ Forall (end_settled (s_world (fst (act a s)))) (snd (act a s))).
    { intros ->. cbn [fst snd]. split; [split; assumption|constructor]. }
    destruct a as [t o' n|t|name bases].
    - destruct (s_reading s t) as [r|] eqn:H; [apply SAME; cbn [BthrModel.act]; rewrite H; reflexivity|]. assert (Q : act (Start t o' n) s = settle s t o' n (start_read type_attr (s_world s) o' n)) by (cbn [BthrModel.act]; rewrite H; reflexivity).
      destruct (Nat.eq_dec o' o) as [-> |NE]; [apply (OWN _ _ _ Q), (start_settled _ own); [apply S|exact SW]|]. apply (OTHER _ _ _ _ NE Q). unfold start_read. destruct (dict (s_world s) o' n); [reflexivity|]. destruct (type_attr o' n) as [[| |]|]; reflexivity.
    - destruct (s_reading s t) as [[ro rn fs]|] eqn:H; [|apply SAME; cbn [BthrModel.act]; rewrite H; reflexivity]. assert (Q : act (Go t) s = settle s t ro rn (step_read type_attr (s_world s) ro fs)) by (cbn [BthrModel.act]; rewrite H; reflexivity).
      pose proof (proj2 S t _ H) as FS. cbn [r_outer r_name r_frames] in FS.
      destruct (Nat.eq_dec ro o) as [-> |NE]; [apply (OWN _ _ _ Q), (step_settled _ own); [apply S|exact SW|exact FS|apply (FR t _ H eq_refl)]|]. apply (OTHER _ _ _ _ NE Q).
      pose proof (fun m => step_dict_other type_attr (s_world s) ro fs o m (not_eq_sym NE)) as P. destruct (step_read type_attr (s_world s) ro fs); exact P.
    - cbn [BthrModel.act] in *. destruct (linearise (s_world s) bases) as [mro|]; [|apply SAME; reflexivity]. cbn [fst snd s_world s_reading] in *. split; [|constructor]. apply GOAL; [apply OLDE; reflexivity|exact OLD].
  Qed.
  Lemma exec_settled : forall l s own, sys_ok s own -> settled s -> settled (fst (exec l s)) /\ Forall (end_settled (s_world (fst (exec l s)))) (snd (exec l s)).
  Proof.
    induction l as [|a l IH]; intros s own S A; cbn [BthrModel.exec]; [split; [exact A|constructor]|]. destruct (act_ok type_attr w0 rank W0 U a s own S) as (own' & _ & _ & S1 & _). destruct (act_settled a s own S A) as (A1 & P1).
    destruct (act a s) as [s1 e1]. cbn [fst snd] in *. destruct (IH s1 own' S1 A1) as (A2 & P2). destruct (exec_ok type_attr w0 rank W0 U l s1 own' S1) as (_ & _ & X & _ & _). destruct (exec l s1) as [s2 e2]. cbn [fst snd] in *.
    split; [exact A2|]. apply Forall_app. split; [|exact P2]. apply (Forall_impl _ (fun e => end_settled_grows _ _ e X) P1).
  Qed.
  Lemma shape_mro w k : shape w k ->
    exists of_o : cid -> cid, (forall x, In x (mro_of c) -> decorated o x = true -> if x =? c then of_o x = k else dict w1 o (name_of x) = Some (VClass (of_o x))) /\
      c_mro (the_class w k) = flat_map (fun x => if decorated o x then [of_o x; x] else [x]) (mro_of c).
  Proof.
    intros (_ & r & r' & MR & CM & D). exists (fun x => if x =? c then k else match dict w1 o (name_of x) with Some (VClass k) => k | _ => 0 end). rewrite MR, CM. cbn [flat_map]. rewrite DC, Nat.eqb_refl. cbn [app].
    assert (NR : ~ In c r) by (pose proof (mro_nodup w0 W0 c LC) as ND; rewrite MR in ND; inversion ND; assumption). clear CM MR. split.
    - intros x J DX. destruct (Nat.eqb_spec x c) as [-> |NE]; [reflexivity|]. destruct J as [J|J]; [congruence|]. clear NR. induction D as [|y l l' DY D IH|y q l l' DY EQ D IH]; [destruct J| |].
      + destruct J as [-> |J]; [congruence|apply IH; assumption].
      + destruct J as [<- |J]; [rewrite EQ; reflexivity|apply IH; assumption].
    - f_equal. f_equal. induction D as [|y l l' DY D IH|y q l l' DY EQ D IH]; [reflexivity| |]; cbn [flat_map]; rewrite DY.
      + rewrite IH at 1; [reflexivity|]. intros J. apply NR. right. exact J.
      + destruct (Nat.eqb_spec y c) as [-> |_]; [destruct NR; left; reflexivity|]. rewrite EQ. rewrite IH at 1; [reflexivity|]. intros J. apply NR. right. exact J.
  Qed.
  (** a class of this shape is bound as in a program with one thread: as in a world in which o has it for c *)
  Lemma shape_wrapped w own k : grows w1 w -> made w0 w own o b c k -> shape w k -> dict w1 o (name_of c) = None \/ dict w1 o (name_of c) = Some (VClass k) ->
    exists w', classes w' = classes w /\ inv type_attr w0 w' /\ wrapped type_attr w0 w' o b c k.
  Proof.
    intros X M (L & r & r' & MR & CM & D) H. pose proof (only_inv type_attr w0 rank U o w1 own1 OK1 E1) as I1. pose proof (inv_grows (only w0 o w1) w I1 X) as I. set (w2 := World (classes w) (dict (only w0 o w1))) in *.
    assert (DI : forall m, dict w2 o m = dict w1 o m) by (intros m; apply (only_dict w0 o w1 m)).
    destruct H as [H|H].
    2: { exists w2. split; [reflexivity|]. split; [exact I|]. rewrite <- DI in H. destruct (inv_cached type_attr w0 rank U _ _ _ _ _ _ I TC H) as (k' & Q & Wr). injection Q as <-. exact Wr. }
    set (w' := World (classes w) (set_dict (dict w2) o (name_of c) (VClass k))). exists w'. split; [reflexivity|].
    assert (X2 : ext w2 w').
    { split; [exists []; symmetry; apply app_nil_r|]. intros o' m v Q. unfold w'. cbn [dict]. destruct (set_dict_cases (dict w2) o (name_of c) (VClass k) o' m) as [-> |(-> & ->)]; [exact Q|]. rewrite DI in Q. congruence. }
    assert (WR : wrapped type_attr w0 w' o b c k).
    { destruct M as [M1 M2 M3 M4 _]. split; auto. change (the_class w' k) with (the_class w k). rewrite MR, CM. apply d_dec; [apply DC|unfold w'; cbn [dict]; apply set_dict_same|]. apply (doubled_ext type_attr w0 w2 w' _ _ _ X2). apply (doubled_same type_attr w0 o w1 w2 _ _ DI D). }
    assert (NEW : forall o' m k', dict w0 o' m = None -> dict w2 o' m = Some (VClass k') -> k' <> k).
    { intros o' m k' Q0 Q ->. destruct (i_entry _ _ _ I _ _ _ Q) as [Q'|(d & c' & k'' & Q' & T' & Wr)]; [congruence|]. injection Q' as <-.
      assert (EO : o' = o). { unfold w2, only in Q. cbn [dict] in Q. destruct (Nat.eqb_spec o' o); [assumption|congruence]. } subst o'.
      pose proof (wr_mro _ _ _ _ _ _ _ Wr) as DM. change (the_class w2 k) with (the_class w k) in DM. rewrite CM in DM. destruct (u_own_name _ _ _ _ (U o) _ _ _ T') as (LC' & NC' & _). destruct (mro_head w0 W0 c' LC') as (s & MS). rewrite MS in DM.
      assert (c' = c). { inversion DM as [|? ? ? DD _|? ? ? ? DD _ _]; subst; [|reflexivity]. lia. } subst c'. rewrite NC' in H. rewrite DI in Q. congruence. }
    split; [|exact WR]. split.
    - apply (ext_trans w0 w2 w'); [apply I|exact X2].
    - intros o' m v Q. unfold w' in Q. cbn [dict] in Q. destruct (set_dict_cases (dict w2) o (name_of c) (VClass k) o' m) as [Q'|(-> & ->)].
      + rewrite Q' in Q. destruct (i_entry _ _ _ I _ _ _ Q) as [Q0|(d & c' & k' & -> & T' & Wr)]; [left; exact Q0|right]. exists d, c', k'. split; [reflexivity|]. split; [exact T'|]. apply (wrapped_ext type_attr w0 w2); assumption.
      + rewrite set_dict_same in Q. injection Q as <-. right. exists b, c, k. auto.
    - intros o1 m1 o2 m2 k' A1 A2 Q1 Q2. unfold w' in Q1, Q2. cbn [dict] in Q1, Q2.
      destruct (set_dict_cases (dict w2) o (name_of c) (VClass k) o1 m1) as [P1|(-> & ->)], (set_dict_cases (dict w2) o (name_of c) (VClass k) o2 m2) as [P2|(-> & ->)].
      + rewrite P1 in Q1. rewrite P2 in Q2. apply (i_inj _ _ _ I _ _ _ _ k'); assumption.
      + rewrite set_dict_same in Q2. injection Q2 as <-. rewrite P1 in Q1. destruct (NEW _ _ _ A1 Q1 eq_refl).
      + rewrite set_dict_same in Q1. injection Q1 as <-. rewrite P2 in Q2. destruct (NEW _ _ _ A2 Q2 eq_refl).
      + auto.
  Qed.
End World.
