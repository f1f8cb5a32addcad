(** Proofs about bound inner classes in several threads: an object that one thread at a time reads. *)
From Verif Require Import PyStrProof BicModel BicSpec BicProof BicProof2 BthrModel BthrSpec BthrProof BthrProof2.

Lemma Forall2_impl {A B} (P Q : A -> B -> Prop) l m : (forall a b, P a b -> Q a b) -> Forall2 P l m -> Forall2 Q l m.
Proof. intros H F. induction F; constructor; auto. Qed.

Section World.
  Context (type_attr : oid -> str -> option value) (w0 : world) (rank : oid -> cid -> nat).
  Hypothesis W0 : forall c, c < length (classes w0) -> class_ok w0 c.
  Hypothesis U : forall o, usage type_attr w0 o (rank o).
  Context (o : oid).
  Notation name_of := (name_of w0).
  Notation bases_of := (bases_of w0).
  Notation mro_of := (mro_of w0).
  Notation decorated := (decorated type_attr w0).
  Notation n0 := (length (classes w0)).
  Notation exec := (exec type_attr).
  Notation act := (act type_attr).
  Notation sys_ok := (sys_ok type_attr w0).
  Notation frame_ok := (frame_ok type_attr w0).
  Notation frames_ok := (frames_ok type_attr w0).
  Notation waiting := (waiting type_attr w0).
  Notation world_ok := (world_ok type_attr w0).
  Notation doubled := (doubled type_attr w0).
  Notation inh := (inh type_attr w0).

  (** only what o has cached *)
  Definition only (w : world) : world := World (classes w) (fun o' n => if o' =? o then dict w o n else dict w0 o' n).
  Lemma only_dict w n : dict (only w) o n = dict w o n.
  Proof. unfold only. cbn [dict]. rewrite Nat.eqb_refl. reflexivity. Qed.
  Lemma doubled_same w w' l l' : (forall n, dict w' o n = dict w o n) -> doubled w o l l' -> doubled w' o l l'.
  Proof. intros E D. induction D; constructor; auto. rewrite E. assumption. Qed.
  Definition entries (w : world) : Prop := forall n b c k, type_attr o n = Some (VWorker b c) -> dict w o n = Some (VClass k) -> doubled w o (mro_of c) (c_mro (the_class w k)).
  Lemma only_inv w own : world_ok w own -> entries w -> inv type_attr w0 (only w).
  Proof.
    intros I E. split.
    - split; [apply I|]. intros o' n v H. unfold only. cbn [dict]. destruct (Nat.eqb_spec o' o) as [-> |]; [apply I, H|exact H].
    - intros o' n v H. unfold only in H. cbn [dict] in H. destruct (Nat.eqb_spec o' o) as [-> |]; [|left; exact H]. destruct (ok_entry _ _ _ _ I _ _ _ H) as [Q|(b & c & k & -> & T & M)]; [left; exact Q|right].
      exists b, c, k. split; [reflexivity|]. split; [exact T|]. destruct M as [M1 M2 M3 M4 M5]. split; auto. change (the_class (only w) k) with (the_class w k). apply (doubled_same w); [apply only_dict|]. apply (E n b c k T H).
    - intros o1 n1 o2 n2 k A1 A2 H1 H2. unfold only in H1, H2. cbn [dict] in H1, H2. destruct (Nat.eqb_spec o1 o) as [-> |]; [|congruence]. destruct (Nat.eqb_spec o2 o) as [-> |]; [|congruence]. split; [reflexivity|].
      destruct (ok_entry _ _ _ _ I _ _ _ H1) as [Q|(b1 & c1 & k1 & Q1 & T1 & M1)]; [congruence|]. destruct (ok_entry _ _ _ _ I _ _ _ H2) as [Q|(b2 & c2 & k2 & Q2 & T2 & M2)]; [congruence|]. injection Q1 as <-. injection Q2 as <-.
      pose proof (m_own _ _ _ _ _ _ _ M1) as P1. rewrite (m_own _ _ _ _ _ _ _ M2) in P1. injection P1 as ->. destruct (u_own_name _ _ _ _ (U o) _ _ _ T1) as (_ & <- & _). destruct (u_own_name _ _ _ _ (U o) _ _ _ T2) as (_ & <- & _). reflexivity.
  Qed.
  (** a call of __get__ on o that nobody disturbs *)
  Record good (w : world) (f : frame) : Prop := {
    g_miss : dict w o (name_of (f_cls f)) = None;
    g_done : exists l, bases_of (f_cls f) = l ++ f_todo f /\ Forall2 (inh w o) l (f_bases f) /\ f_multi f = existsb (decorated o) l;
    g_made : forall k, f_made f = Some k -> exists r r', mro_of (f_cls f) = f_cls f :: r /\ c_mro (the_class w k) = k :: f_cls f :: r' /\ doubled w o r r' }.
  Definition more (w w' : world) : Prop := grows w w' /\ forall n v, dict w o n = Some v -> dict w' o n = Some v.
  Lemma more_refl w : more w w. Proof. split; [apply grows_refl|auto]. Qed.
  Lemma more_doubled w w' l l' : more w w' -> doubled w o l l' -> doubled w' o l l'.
  Proof. intros X D. induction D; constructor; auto. apply X. assumption. Qed.
  Lemma more_inh w w' b x : more w w' -> inh w o b x -> inh w' o b x.
  Proof. intros X. unfold BicProof2.inh. destruct (decorated o b); [apply X|auto]. Qed.
  Lemma good_more w w' own f : more w w' -> frame_ok w own o f -> dict w' o (name_of (f_cls f)) = None -> good w f -> good w' f.
  Proof.
    intros X F E [A (l & B1 & B2 & B3) C]. split; [exact E| |].
    - exists l. split; [exact B1|]. split; [|exact B3]. apply (Forall2_impl _ _ _ _ (fun b x => more_inh w w' b x X) B2).
    - intros k H. destruct (C k H) as (r & r' & C1 & C2 & C3). destruct (f_top _ _ _ _ _ _ F k H) as (_ & M). exists r, r'. split; [exact C1|]. rewrite (grows_class w w' k (proj1 X)) by apply M. split; [exact C2|apply (more_doubled w w'); assumption].
  Qed.
  Lemma entries_more w w' own : world_ok w own -> more w w' -> entries w -> forall n b c k, type_attr o n = Some (VWorker b c) -> dict w o n = Some (VClass k) -> doubled w' o (mro_of c) (c_mro (the_class w' k)).
  Proof.
    intros I X E n b c k T H. destruct (ok_cached _ _ _ U _ _ _ _ _ _ _ I T H) as (k' & Q & M). injection Q as <-. rewrite (grows_class w w' k (proj1 X)) by apply M. apply (more_doubled w w' _ _ X). apply (E n b c k T H).
  Qed.
  Lemma entries_same w w' own : world_ok w own -> grows w w' -> (forall n, dict w' o n = dict w o n) -> entries w -> entries w'.
  Proof. intros I X Q E n b c k T H. rewrite Q in H. apply (entries_more w w' own I) with (n := n) (b := b); auto. split; [exact X|]. intros. rewrite Q. assumption. Qed.
  (** the calls below have greater rank, so other names *)
  Lemma waiting_rank w own n fs c : waiting w own o n c fs -> decorated o c = true -> forall f, In f fs -> rank o c < rank o (f_cls f).
  Proof.
    intros H. induction H as [c E|c g fs base todo G M TD N1 N2 H IH]; intros DC f J; [destruct J|].
    destruct (frame_facts _ _ _ U _ _ _ _ G) as (D & L). destruct (todo_base _ _ _ W0 U _ _ _ _ _ _ G TD) as (JB & LB). apply decorated_iff in DC. destruct DC as (d & DC). rewrite <- N1 in DC. pose proof (u_rank _ _ _ _ (U o) _ _ _ _ D JB N2 DC) as RK.
    destruct J as [<- |J]; [exact RK|]. specialize (IH D f J). lia.
  Qed.
  Lemma waiting_frame w own n fs c : waiting w own o n c fs -> forall f, In f fs -> frame_ok w own o f.
  Proof. intros H. induction H as [c E|c g fs base todo G M TD N1 N2 H IH]; intros f J; [destruct J|]. destruct J as [<- |J]; [exact G|apply IH, J]. Qed.
  Lemma good_append w own f base todo x m : frame_ok w own o f -> f_todo f = base :: todo -> good w f -> inh w o base x -> m = decorated o base -> good w (append f x m).
  Proof.
    intros F TD [A (l & B1 & B2 & B3) C] H ->. split; [exact A| |]; cbn [append f_cls f_todo f_bases f_multi f_made].
    - exists (l ++ [base]). rewrite TD in *. cbn [tl]. split; [rewrite <- app_assoc; exact B1|]. split; [apply Forall2_app; [exact B2|constructor; [exact H|constructor]]|]. rewrite existsb_app, B3. cbn [existsb]. rewrite orb_false_r. reflexivity.
    - intros k H'. destruct (f_top _ _ _ _ _ _ F k H') as (Q & _). congruence.
  Qed.
  (** what a look at the dictionary gives *)
  Lemma found_inh w own f base todo b c k : frame_ok w own o f -> f_todo f = base :: todo -> good w f -> made w0 w own o b c k ->
    type_attr o (name_of base) = Some (VWorker b c) -> dict w o (name_of base) = Some (VClass k) ->
    exists f', found w f base (Some (VClass k)) = Ok f' /\ good w f' /\ frame_ok w own o f' /\ f_cls f' = f_cls f.
  Proof.
    intros F TD G M T H. rewrite (found_made type_attr w0 w own o f base todo b c k F TD M). eexists. split; [reflexivity|]. destruct (Nat.eqb_spec c base) as [-> |NE].
    - assert (DB : decorated o base = true) by (apply decorated_iff; exists b; exact T). split; [|split; [apply (append_ok type_attr w0 w own o f base todo); assumption|reflexivity]]. apply (good_append w own f base todo); auto. unfold BicProof2.inh. rewrite DB. exact H.
    - assert (DB : decorated o base = false) by (unfold BicSpec.decorated; rewrite T; apply Nat.eqb_neq, NE). split; [|split; [apply (append_ok type_attr w0 w own o f base todo); assumption|reflexivity]]. apply (good_append w own f base todo); auto. unfold BicProof2.inh. rewrite DB. reflexivity.
  Qed.
  Definition alone_post (n : str) (w : world) (x : outcome) : Prop :=
    match x with
    | More w' fs' => more w w' /\ entries w' /\ Forall (good w') fs'
    | Finished w' r => more w w' /\ entries w' /\ forall b c, type_attr o n = Some (VWorker b c) -> exists k, r = Ok (VClass k) /\ dict w' o n = Some (VClass k)
    end.
  Lemma step_alone w own n fs : world_ok w own -> frames_ok w own o n fs -> entries w -> Forall (good w) fs -> alone_post n w (step_read type_attr w o fs).
  Proof.
    intros I FS E GS. destruct fs as [|f rest]; [destruct FS|]. destruct FS as (F & WT). destruct (frame_facts _ _ _ U _ _ _ _ F) as (D & L). inversion GS as [|? ? G GR]; subst. cbn [step_read]. rewrite (ok_class _ _ _ _ _ I L). fold (name_of (f_cls f)).
    destruct (f_todo f) as [|base todo] eqn:TD.
    - destruct (f_made f) as [k|] eqn:MD.
      + (* store *)
        destruct (f_top _ _ _ _ _ _ F k MD) as (_ & M). destruct (g_made _ _ G k MD) as (r & r' & MR & CM & DB). set (c := f_cls f) in *. set (w' := World (classes w) _).
        assert (X : more w w').
        { split; [apply grows_store|]. intros n' v H. unfold w'. cbn [dict]. destruct (set_dict_cases (dict w) o (name_of c) (VClass k) o n') as [-> |(_ & ->)]; [exact H|]. pose proof (g_miss _ _ G) as Q. fold c in Q. congruence. }
        assert (I' : world_ok w' own) by (apply (store_ok _ _ _ U w own o (f_bound f)); [exact I|apply F|exact M]).
        assert (ST : dict w' o (name_of c) = Some (VClass k)) by (unfold w'; cbn [dict]; apply set_dict_same).
        assert (E' : entries w').
        { intros n' b' c' k' T' H'. unfold w' in H'. cbn [dict] in H'. destruct (set_dict_cases (dict w) o (name_of c) (VClass k) o n') as [Q|(_ & ->)].
          - rewrite Q in H'. apply (entries_more w w' own I X E n' b' c' k' T' H').
          - rewrite set_dict_same in H'. injection H' as <-. pose proof (f_attr _ _ _ _ _ _ F) as T. fold c in T. rewrite T in T'. injection T' as <- <-. rewrite MR. change (the_class w' k) with (the_class w k). rewrite CM. apply d_dec; [exact D|exact ST|]. apply (more_doubled w w'); assumption. }
        destruct rest as [|g rest].
        * split; [exact X|]. split; [exact E'|]. intros b c' T. inversion WT as [? NM|]; subst n. exists k. auto.
        * assert (RK : forall h, In h (g :: rest) -> dict w' o (name_of (f_cls h)) = None).
          { intros h J. pose proof (waiting_rank w own n (g :: rest) c WT D h J) as RK. rewrite Forall_forall in GR. pose proof (g_miss _ _ (GR h J)) as MI. unfold w'. cbn [dict]. destruct (set_dict_cases (dict w) o (name_of c) (VClass k) o (name_of (f_cls h))) as [-> |(_ & Q)]; [exact MI|].
            exfalso. destruct (frame_facts _ _ _ U _ _ _ _ (waiting_frame _ _ _ _ _ WT h J)) as (DH & _). pose proof (decorated_name type_attr w0 o _ _ DH D Q) as Q'. rewrite Q' in RK. lia. }
          assert (GR' : Forall (good w') (g :: rest)).
          { rewrite Forall_forall in GR |- *. intros h J. apply (good_more w w' own); [exact X|apply (waiting_frame _ _ _ _ _ WT h J)|apply RK, J|apply GR, J]. }
          apply (waiting_grows type_attr w0 w w' own own) in WT; [|apply grows_store|intros ? ?; reflexivity]. inversion WT as [|? ? ? base todo' FG MG TG N1 N2 WT']; subst. inversion GR' as [|? ? GG GR'']; subst. rewrite TG.
          assert (M' : made w0 w' own o (f_bound f) c k) by (apply (made_grows w0 w w' own own); [apply grows_store|intros ? ?; reflexivity|exact M]).
          destruct (found_inh w' own g base todo' (f_bound f) c k FG TG GG M') as (g' & -> & P & _); [rewrite N1; apply F|rewrite N1; exact ST|]. cbn [continue]. split; [exact X|]. split; [exact E'|]. constructor; assumption.
      + (* make *)
        destruct (g_done _ _ G) as (l & B1 & B2 & B3). rewrite TD, app_nil_r in B1. subst l. set (c := f_cls f) in *.
        assert (IO : inv type_attr w0 (only w)) by (apply (only_inv w own); assumption).
        destruct (linearise_wrapper type_attr w0 rank W0 U (only w) o IO c (f_bases f) D) as (r & r' & MR & DB & LI).
        { apply (Forall2_impl (inh w o)); [|exact B2]. intros b x H. unfold BicProof2.inh in *. rewrite only_dict. exact H. }
        change (linearise (only w)) with (linearise w) in LI. rewrite <- B3 in LI. rewrite LI. set (k := length (classes w)). set (cl := Cls _ _ _ _). set (w' := World (classes w ++ [cl]) (dict w)).
        assert (X : more w w') by (split; [exists [cl]; reflexivity|auto]). assert (DB' : doubled w' o r r') by (apply (doubled_same (only w)); [intros m; rewrite only_dict; reflexivity|exact DB]).
        split; [exact X|]. split; [apply (entries_same w w' own); [exact I|apply X|reflexivity|exact E]|]. constructor.
        * split; cbn [f_cls f_todo f_bases f_multi f_made]; fold c; [apply (g_miss _ _ G)| |].
          -- exists (bases_of c). rewrite app_nil_r. split; [reflexivity|]. split; [|exact B3]. apply (Forall2_impl _ _ _ _ (fun b x => more_inh w w' b x X) B2).
          -- intros k' Q. injection Q as <-. exists r, r'. split; [exact MR|]. split; [|exact DB']. unfold the_class, w', k. cbn [classes]. rewrite app_nth2, Nat.sub_diag by lia. reflexivity.
        * rewrite Forall_forall in GR |- *. intros h J. apply (good_more w w' own); [exact X|apply (waiting_frame _ _ _ _ _ WT h J)| |apply GR, J]. apply (g_miss _ _ (GR h J)).
    - destruct (todo_base _ _ _ W0 U _ _ _ _ _ _ F TD) as (J & LB). rewrite (ok_class _ _ _ _ _ I LB). fold (name_of base).
      assert (PLAIN : decorated o base = false -> alone_post n w (More w (append f base false :: rest))).
      { intros DB. split; [apply more_refl|]. split; [exact E|]. constructor; [|exact GR]. apply (good_append w own f base todo); auto. unfold BicProof2.inh. rewrite DB. reflexivity. }
      destruct (str_eqb (name_of base) (name_of (f_cls f))) eqn:EN.
      { apply str_eqb_eq in EN. apply PLAIN. destruct (decorated o base) eqn:DB; [|reflexivity]. pose proof (decorated_name type_attr w0 o _ _ DB D EN). pose proof (bases_lt w0 W0 _ _ L J). lia. }
      assert (NN : name_of base <> name_of (f_cls f)) by (intros Q; apply str_eqb_eq in Q; congruence).
      destruct (dict w o (name_of base)) as [v|] eqn:ED.
      + destruct (ok_entry _ _ _ _ I _ _ _ ED) as [H0|(d & c' & k & -> & T & M)].
        * rewrite (found_old type_attr w0 rank W0 U w own o f base todo v I F TD NN (or_introl H0)). apply PLAIN. destruct (decorated o base) eqn:DB; [|reflexivity]. rewrite (decorated_dict type_attr w0 rank U o base DB) in H0. discriminate.
        * destruct (found_inh w own f base todo d c' k F TD G M T ED) as (f' & -> & P & _). cbn [continue]. split; [apply more_refl|]. split; [exact E|]. constructor; assumption.
      + destruct (type_attr o (name_of base)) as [v|] eqn:T.
        2: { apply PLAIN. unfold BicSpec.decorated. rewrite T. reflexivity. }
        destruct v as [k|d c'|].
        * rewrite (found_old type_attr w0 rank W0 U w own o f base todo (VClass k) I F TD NN); [|right; split; [exact T|discriminate]]. apply PLAIN. unfold BicSpec.decorated. rewrite T. reflexivity.
        * destruct (u_own_name _ _ _ _ (U o) _ _ _ T) as (LC & NC & _). split; [apply more_refl|]. split; [exact E|]. constructor; [|constructor; assumption]. split; cbn [enter f_cls f_todo f_bases f_multi f_made].
          -- rewrite NC. exact ED.
          -- exists []. rewrite (ok_class _ _ _ _ _ I LC). fold (bases_of c'). split; [reflexivity|]. split; [constructor|reflexivity].
          -- discriminate.
        * apply PLAIN. unfold BicSpec.decorated. rewrite T. reflexivity.
  Qed.
  Lemma start_alone w own n : world_ok w own -> entries w -> alone_post n w (start_read type_attr w o n).
  Proof.
    intros I E. unfold start_read. destruct (dict w o n) as [v|] eqn:H.
    - split; [apply more_refl|]. split; [exact E|]. intros b c T. destruct (ok_cached _ _ _ U _ _ _ _ _ _ _ I T H) as (k & -> & M). exists k. auto.
    - destruct (type_attr o n) as [[k|b c|]|] eqn:T; cbn [alone_post].
      2: { destruct (u_own_name _ _ _ _ (U o) _ _ _ T) as (LC & NC & _). split; [apply more_refl|]. split; [exact E|]. constructor; [|constructor]. split; cbn [enter f_cls f_todo f_bases f_multi f_made].
           - rewrite NC. exact H.
           - exists []. rewrite (ok_class _ _ _ _ _ I LC). fold (bases_of c). split; [reflexivity|]. split; [constructor|reflexivity].
           - discriminate. }
      all: split; [apply more_refl|]; split; [exact E|]; intros; congruence.
  Qed.
  (** the whole system, as far as o is concerned *)
  Record alone (s : system) : Prop := {
    a_entries : entries (s_world s);
    a_good : forall t r, s_reading s t = Some r -> r_outer r = o -> Forall (good (s_world s)) (r_frames r);
    a_one : forall t t' r r', s_reading s t = Some r -> s_reading s t' = Some r' -> r_outer r = o -> r_outer r' = o -> t = t' }.
  Definition end_alone (w : world) (e : ending) : Prop :=
    let '(Ended _ o' n r) := e in o' = o -> forall b c, type_attr o n = Some (VWorker b c) -> exists k, r = Ok (VClass k) /\ dict w o n = Some (VClass k).
  (** a step of another object *)
  Lemma good_same w w' own fs n : grows w w' -> (forall n, dict w' o n = dict w o n) -> frames_ok w own o n fs -> Forall (good w) fs -> Forall (good w') fs.
  Proof.
    intros X Q FS G. assert (F : forall f, In f fs -> frame_ok w own o f).
    { destruct fs as [|f0 fs]; [destruct FS|]. destruct FS as (F & WT). intros f [<- |J]; [exact F|apply (waiting_frame _ _ _ _ _ WT f J)]. }
    rewrite Forall_forall in G |- *. intros f J. apply (good_more w w' own); [split; [exact X|intros; rewrite Q; assumption]|apply F, J|rewrite Q; apply (g_miss _ _ (G f J))|apply G, J].
  Qed.
  Lemma settle_other s own t o' n x : sys_ok s own -> alone s -> o' <> o -> match x with More w' _ | Finished w' _ => grows (s_world s) w' /\ forall m, dict w' o m = dict (s_world s) o m end ->
    (forall m, dict (s_world (fst (settle s t o' n x))) o m = dict (s_world s) o m) /\ alone (fst (settle s t o' n x)) /\ Forall (end_alone (s_world (fst (settle s t o' n x)))) (snd (settle s t o' n x)).
  Proof.
    intros S [E G ONE] NE X. destruct x as [w' fs'|w' r']; cbn [settle fst snd s_world]; destruct X as (X & Q); (split; [exact Q|]); (split; [split; cbn [s_world s_reading]|]).
    - apply (entries_same (s_world s) w' own); [apply S|exact X|exact Q|exact E].
    - intros t' r' H EO. destruct (Nat.eq_dec t' t) as [-> |NT]; [rewrite set_reading_same in H; injection H as <-; cbn [r_outer] in EO; congruence|]. rewrite set_reading_other in H by exact NT. pose proof (proj2 S t' r' H) as FS. rewrite EO in FS. apply (good_same (s_world s) w' own _ (r_name r') X Q FS). apply (G t' r' H EO).
    - intros t1 t2 r1 r2 H1 H2 E1 E2. destruct (Nat.eq_dec t1 t) as [-> |N1]; [rewrite set_reading_same in H1; injection H1 as <-; cbn [r_outer] in E1; congruence|]. destruct (Nat.eq_dec t2 t) as [-> |N2]; [rewrite set_reading_same in H2; injection H2 as <-; cbn [r_outer] in E2; congruence|].
      rewrite set_reading_other in H1 by exact N1. rewrite set_reading_other in H2 by exact N2. apply (ONE t1 t2 r1 r2); assumption.
    - constructor.
    - apply (entries_same (s_world s) w' own); [apply S|exact X|exact Q|exact E].
    - intros t' r0 H EO. destruct (Nat.eq_dec t' t) as [-> |NT]; [rewrite set_reading_same in H; discriminate|]. rewrite set_reading_other in H by exact NT. pose proof (proj2 S t' r0 H) as FS. rewrite EO in FS. apply (good_same (s_world s) w' own _ (r_name r0) X Q FS). apply (G t' r0 H EO).
    - intros t1 t2 r1 r2 H1 H2 E1 E2. destruct (Nat.eq_dec t1 t) as [-> |N1]; [rewrite set_reading_same in H1; discriminate|]. destruct (Nat.eq_dec t2 t) as [-> |N2]; [rewrite set_reading_same in H2; discriminate|].
      rewrite set_reading_other in H1 by exact N1. rewrite set_reading_other in H2 by exact N2. apply (ONE t1 t2 r1 r2); assumption.
    - constructor; [|constructor]. intros EO. congruence.
  Qed.
  Lemma settle_own s t n x : (forall t' r, s_reading s t' = Some r -> r_outer r = o -> t' = t) -> alone_post n (s_world s) x ->
    more (s_world s) (s_world (fst (settle s t o n x))) /\ alone (fst (settle s t o n x)) /\ Forall (end_alone (s_world (fst (settle s t o n x)))) (snd (settle s t o n x)).
  Proof.
    intros ONE X. destruct x as [w' fs'|w' r']; cbn [settle fst snd s_world]; destruct X as (X & E & P); (split; [exact X|]); (split; [split; cbn [s_world s_reading]|]).
    - exact E.
    - intros t' r' H EO. destruct (Nat.eq_dec t' t) as [-> |NT]; [rewrite set_reading_same in H; injection H as <-; exact P|]. rewrite set_reading_other in H by exact NT. destruct NT. apply (ONE t' r' H EO).
    - intros t1 t2 r1 r2 H1 H2 E1 E2. transitivity t; [|symmetry].
      + destruct (Nat.eq_dec t1 t) as [-> |N1]; [reflexivity|]. rewrite set_reading_other in H1 by exact N1. apply (ONE t1 r1 H1 E1).
      + destruct (Nat.eq_dec t2 t) as [-> |N1]; [reflexivity|]. rewrite set_reading_other in H2 by exact N1. apply (ONE t2 r2 H2 E2).
    - constructor.
    - exact E.
    - intros t' r0 H EO. destruct (Nat.eq_dec t' t) as [-> |NT]; [rewrite set_reading_same in H; discriminate|]. rewrite set_reading_other in H by exact NT. destruct NT. apply (ONE t' r0 H EO).
    - intros t1 t2 r1 r2 H1 H2 E1 E2. destruct (Nat.eq_dec t1 t) as [-> |N1]; [rewrite set_reading_same in H1; discriminate|]. rewrite set_reading_other in H1 by exact N1. destruct N1. apply (ONE t1 r1 H1 E1).
    - constructor; [|constructor]. intros _ b c T. apply (P b c T).
  Qed.
  Lemma same_more w w' : grows w w' -> (forall n, dict w' o n = dict w o n) -> more w w'.
  Proof. intros X Q. split; [exact X|]. intros. rewrite Q. assumption. Qed.
  Lemma act_alone a s own : sys_ok s own -> alone s -> (forall t n, a = Start t o n -> s_reading s t = None -> nobody_reads s o) ->
    more (s_world s) (s_world (fst (act a s))) /\ alone (fst (act a s)) /\ Forall (end_alone (s_world (fst (act a s)))) (snd (act a s)).
  Proof.
    intros S A ONE. assert (NO : more (s_world s) (s_world s) /\ alone s /\ Forall (end_alone (s_world s)) []) by (split; [apply more_refl|split; [exact A|constructor]]).
    destruct (act_ok type_attr w0 rank W0 U a s own S) as (own1 & _ & GR & _ & _).
    destruct a as [t o' n|t|name bases]; cbn [BthrModel.act] in *.
    - destruct (s_reading s t) as [r|] eqn:H; [exact NO|]. destruct (Nat.eq_dec o' o) as [-> |NE].
      + apply settle_own; [|apply (start_alone _ own); [apply S|apply A]]. intros t' r H' EO. destruct (ONE t n eq_refl H t' r H' EO).
      + destruct (settle_other s own t o' n (start_read type_attr (s_world s) o' n) S A NE) as (Q & P).
        { assert (W : match start_read type_attr (s_world s) o' n with More w' _ | Finished w' _ => w' = s_world s end) by (unfold start_read; destruct (dict (s_world s) o' n); [reflexivity|]; destruct (type_attr o' n) as [[| |]|]; reflexivity).
          destruct (start_read type_attr (s_world s) o' n); rewrite W; (split; [apply grows_refl|reflexivity]). }
        split; [apply same_more; assumption|exact P].
    - destruct (s_reading s t) as [[ro rn fs]|] eqn:H; [|exact NO]. cbn [r_outer r_name r_frames] in *. pose proof (proj2 S t _ H) as FS. cbn [r_outer r_name r_frames] in FS. destruct (Nat.eq_dec ro o) as [-> |NE].
      + apply settle_own; [|apply (step_alone _ own); [apply S|exact FS|apply A|apply (a_good _ A t _ H eq_refl)]]. intros t' r H' EO. apply (a_one _ A t' t r _ H' H EO eq_refl).
      + destruct (settle_other s own t ro rn (step_read type_attr (s_world s) ro fs) S A NE) as (Q & P).
        { pose proof (fun m => step_dict_other type_attr (s_world s) ro fs o m (not_eq_sym NE)) as Q. destruct (step_read_ok type_attr w0 rank W0 U (s_world s) own ro rn fs (proj1 S) FS) as (own' & _ & P).
          destruct (step_read type_attr (s_world s) ro fs) as [w' fs'|w' [v|e]]; destruct P as (P & _); split; auto. }
        split; [apply same_more; assumption|exact P].
    - destruct (linearise (s_world s) bases) as [mro|]; [|exact NO]. cbn [fst snd s_world] in *. split; [split; [exact GR|auto]|]. split; [|constructor]. destruct A as [E G ON]. split; cbn [s_world s_reading].
      + apply (entries_same (s_world s) _ own); [apply S|exact GR|reflexivity|exact E].
      + intros t r H EO. pose proof (proj2 S t r H) as FS. rewrite EO in FS. apply (good_same (s_world s) _ own _ (r_name r) GR ltac:(reflexivity) FS). apply (G t r H EO).
      + exact ON.
  Qed.
  Lemma end_more w w' e : more w w' -> end_alone w e -> end_alone w' e.
  Proof. intros X. destruct e as [t o' n r]. intros H EO b c T. destruct (H EO b c T) as (k & Q & D). exists k. split; [exact Q|apply X, D]. Qed.
  Lemma more_trans w w' w'' : more w w' -> more w' w'' -> more w w''.
  Proof. intros (A & B) (C & D). split; [apply (grows_trans w w'); assumption|auto]. Qed.
  Lemma exec_alone : forall l s own, sys_ok s own -> alone s -> one_reader type_attr o l s ->
    more (s_world s) (s_world (fst (exec l s))) /\ alone (fst (exec l s)) /\ Forall (end_alone (s_world (fst (exec l s)))) (snd (exec l s)).
  Proof.
    induction l as [|a l IH]; intros s own S A O; cbn [BthrModel.exec]; [split; [apply more_refl|split; [exact A|constructor]]|]. destruct O as (O1 & O2). destruct (act_ok type_attr w0 rank W0 U a s own S) as (own1 & _ & _ & S1 & _).
    destruct (act_alone a s own S A O1) as (X1 & A1 & E1). destruct (act a s) as [s1 e1]. cbn [fst snd] in *. destruct (IH s1 own1 S1 A1 O2) as (X2 & A2 & E2). destruct (exec l s1) as [s2 e2]. cbn [fst snd] in *.
    split; [apply (more_trans _ (s_world s1)); assumption|]. split; [exact A2|]. apply Forall_app. split; [|exact E2]. apply (Forall_impl _ (fun e => end_more _ _ e X2) E1).
  Qed.
  Lemma idle_alone : alone (idle w0).
  Proof.
    split; [|discriminate|discriminate]. intros n b c k T H. destruct (u_own_name _ _ _ _ (U o) _ _ _ T) as (_ & _ & Q). cbn [idle s_world] in H. congruence.
  Qed.
End World.
