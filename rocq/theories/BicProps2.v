(** C84 for all classes: with or without __init__, outer object alive or not. *)
From Verif Require Import PyStrProof BicModel BicSpec BicSpec2 BicProof BicProof2 BicProof3 BicProps.

Lemma subseq_refl l : subseq l l.
Proof. induction l; [apply sub_nil|apply sub_take; auto]. Qed.
Lemma subseq_trans a b c : subseq a b -> subseq b c -> subseq a c.
Proof. intros H H2. revert a H. induction H2; intros a H; [exact H|apply sub_skip; auto|]. inversion H; subst; [apply sub_skip; auto|apply sub_take; auto]. Qed.
Lemma subseq_in a b x : subseq a b -> In x a -> In x b.
Proof. induction 1; cbn; tauto. Qed.
Lemma subseq_skip x rx pre l : ~ In x pre -> subseq (x :: rx) (pre ++ x :: l) -> subseq rx l.
Proof.
  induction pre as [|p pre IH]; cbn [app]; intros N H.
  - inversion H as [|? ? ? H2|]; subst; auto. apply (subseq_trans _ (x :: rx)); [apply sub_skip, subseq_refl|exact H2].
  - inversion H; subst; [apply IH; auto; intros J; apply N; right; auto|destruct N; left; auto].
Qed.
Lemma subseq_length a b : subseq a b -> length a <= length b.
Proof. induction 1; cbn; lia. Qed.
(** what is in front of y in the shorter list is in front of it in the longer one *)
Lemma subseq_split a1 y a2 l : subseq (a1 ++ y :: a2) l -> exists l1 l2, l = l1 ++ y :: l2 /\ length a1 <= length l1.
Proof.
  intros H. remember (a1 ++ y :: a2) as a eqn:E. revert a1 E. induction H as [|x a l H IH|x a l H IH]; intros a1 E.
  - destruct a1; discriminate.
  - destruct (IH a1 E) as (l1 & l2 & -> & L). exists (x :: l1), l2. split; auto. cbn. lia.
  - destruct a1 as [|z a1]; cbn in E; injection E as -> ->.
    + exists [], l. split; auto.
    + destruct (IH a1 eq_refl) as (l1 & l2 & -> & L). exists (z :: l1), l2. split; auto. cbn. lia.
Qed.
Lemma find_split {A} (p : A -> bool) l : match find p l with Some y => exists a b, l = a ++ y :: b /\ forallb (fun x => negb (p x)) a = true /\ p y = true | None => forallb (fun x => negb (p x)) l = true end.
Proof.
  induction l as [|x l IH]; [reflexivity|]. cbn [find]. destruct (p x) eqn:E; [exists [], l; auto|].
  destruct (find p l) as [y|].
  - destruct IH as (a & b & -> & F & P). exists (x :: a), b. cbn. rewrite E. auto.
  - cbn. rewrite E. exact IH.
Qed.

(** There is one result *)
Lemma nodup_tail (a : list cid) y b : NoDup (a ++ y :: b) -> NoDup b.
Proof. induction a as [|z a IH]; cbn; intros H; inversion H; auto. Qed.
Lemma split_unique (y : cid) a b a' b' : NoDup (a ++ y :: b) -> a ++ y :: b = a' ++ y :: b' -> a = a' /\ b = b'.
Proof.
  revert a'. induction a as [|z a IH]; intros a' ND E; destruct a' as [|z' a']; cbn in E.
  - injection E as <-. auto.
  - injection E as <- ->. inversion ND as [|? ? N _]; subst. destruct N. apply in_or_app. right. left. reflexivity.
  - injection E as -> <-. inversion ND as [|? ? N _]; subst. destruct N. apply in_or_app. right. left. reflexivity.
  - injection E as <- E. inversion ND; subst. destruct (IH a' ltac:(assumption) E) as (-> & ->). auto.
Qed.
Lemma inits_det bound mro defines takes_outer outer l : NoDup l -> forall r r', inits bound mro defines takes_outer outer l r -> inits bound mro defines takes_outer outer l r' -> r = r'.
Proof.
  intros ND r r' H. revert ND r'. induction H as [|x l r B D H IH|x l r B D T H IH|x l B D T|x y l sk l2 r B FD T E H IH|x l B M]; intros ND r' H'.
  - inversion H'; subst; reflexivity.
  - inversion H'; subst; try congruence. inversion ND; subst. auto.
  - inversion H'; subst; try congruence. inversion ND; subst. f_equal. auto.
  - inversion H'; subst; congruence.
  - inversion H'; subst; try congruence.
    + match goal with X : find _ _ = Some ?y2 |- _ => assert (y2 = y) by congruence; subst y2 end. f_equal. 
      match goal with X : _ :: _ = ?sk' ++ y :: ?l3 |- _ => rewrite E in X; rewrite E in ND; destruct (split_unique y sk l2 sk' l3 ND X); subst end.
      apply IH; auto. apply nodup_tail in ND. exact ND.
    + match goal with X : match find _ _ with _ => _ end |- _ => rewrite FD in X; congruence end.
  - inversion H'; subst; try congruence.
    match goal with X : find _ _ = Some _ |- _ => rewrite X in M; congruence end.
Qed.

Section Exact.
  Context (type_attr : oid -> str -> option value) (w0 : world) (rank : oid -> cid -> nat).
  Hypothesis W0 : forall c, c < length (classes w0) -> class_ok w0 c.
  Hypothesis U : forall o, usage type_attr w0 o (rank o).
  Notation name_of := (name_of w0).
  Notation mro_of := (mro_of w0).
  Notation decorated := (decorated type_attr w0).
  Notation decorated_bound := (decorated_bound type_attr w0).
  Notation n0 := (length (classes w0)).

  Lemma mro_subseq : forall c, c < n0 -> forall x, In x (mro_of c) -> subseq (mro_of x) (mro_of c).
  Proof.
    induction c as [c IH] using lt_wf_ind. intros L x J. destruct (mro_head w0 W0 c L) as (r & E). pose proof J as J'. rewrite E in J'. destruct J' as [<- |J']; [apply subseq_refl|].
    destruct (mro_tail_in w0 W0 c r x L E J') as (b & B & X). pose proof (bases_lt w0 W0 c b L B) as LB.
    apply (subseq_trans _ (mro_of b)); [apply IH; [lia|lia|exact X]|]. rewrite E. apply sub_skip.
    destruct (W0 c L) as (_ & r' & M & E'). rewrite E in E'. injection E' as <-. unfold linearise in M. apply (merge_subseq _ _ _ M). apply in_or_app. left. unfold BicSpec.mro_of. apply in_map_iff. exists b. auto.
  Qed.

  Context (w : world) (o : oid) (I : inv type_attr w0 w) (defines takes_outer : cid -> bool) (alive : oid -> bool) (c : cid).
  Hypothesis KIND : forall x, In x (mro_of c) -> c_kind (the_class w0 x) = Plain.
  Hypothesis LC : c < n0.
  Notation doubled := (doubled type_attr w0 w o).
  Notation outer := (if alive o then Some o else None).

  Lemma walk self a : forall fuel rest out, (forall x, In x a -> x < n0 /\ c_kind (the_class w0 x) = Plain) -> forallb (fun x => negb (defines x)) a = true -> length a <= fuel ->
    call_init w defines takes_outer alive fuel self (a ++ rest) out = call_init w defines takes_outer alive (fuel - length a) self rest out.
  Proof.
    induction a as [|x a IH]; intros fuel rest out K F L; [now rewrite Nat.sub_0_r|]. cbn in L. destruct fuel as [|fuel]; [lia|].
    cbn [app call_init]. destruct (K x (or_introl eq_refl)) as (LX & KX). rewrite <- (inv_class type_attr w0 w x I LX) in KX. rewrite KX.
    cbn in F. apply andb_prop in F. destruct F as (F1 & F2). apply negb_true_iff in F1. rewrite F1.
    rewrite IH; [reflexivity|intros y J; apply K; right; exact J|exact F2|lia].
  Qed.

  Lemma doubled_split l1 y l2 l' : doubled (l1 ++ y :: l2) l' -> exists p' s', l' = p' ++ y :: s' /\ doubled l2 s' /\ doubled (l1 ++ [y]) (p' ++ [y]) .
  Proof.
    revert l'. induction l1 as [|x l1 IH]; intros l' H; cbn [app] in H.
    - inversion H; subst.
      + exists [], l'0. split; auto. split; auto. constructor; auto. constructor.
      + exists [k], l'0. split; auto. split; auto. cbn. constructor; auto. constructor.
    - inversion H; subst.
      + match goal with X : doubled (l1 ++ y :: l2) _ |- _ => destruct (IH _ X) as (p' & s' & -> & D1 & D2) end.
        exists (x :: p'), s'. split; auto. split; auto. cbn. constructor; auto.
      + match goal with X : doubled (l1 ++ y :: l2) _ |- _ => destruct (IH _ X) as (p' & s' & -> & D1 & D2) end.
        exists (k :: x :: p'), s'. split; auto. split; auto. cbn. constructor; auto.
  Qed.

  Lemma doubled_last pre y p' : y < n0 -> doubled (pre ++ [y]) (p' ++ [y]) -> In y p' -> In y pre.
  Proof.
    intros LY. revert p'. induction pre as [|q pre IH]; intros p' H J.
    - cbn [app] in H. inversion H as [|? ? ? DX HS E1 E2|? k ? ? DX Q HS E1 E2]; subst.
      + inversion HS; subst. destruct p' as [|z p']; [destruct J|]. destruct p'; discriminate.
      + inversion HS; subst. destruct p' as [|z [|z2 p']]; [destruct J| |destruct p'; discriminate]. cbn in E2. injection E2 as <-. destruct J as [-> |[]].
        apply (decorated_iff type_attr w0) in DX. destruct DX as (b & X). destruct (inv_cached type_attr w0 rank U w o _ _ _ _ I X Q) as (k' & Q' & Wr). injection Q' as <-. pose proof (wr_lt _ _ _ _ _ _ _ Wr). lia.
    - cbn [app] in H. inversion H as [|? ? s DX HS E1 E2|? k ? s DX Q HS E1 E2]; subst.
      + destruct p' as [|z p']; [destruct J|]. cbn in E2. injection E2 as <- ->. destruct J as [-> |J]; [left; reflexivity|]. right. eapply IH; eassumption.
      + destruct p' as [|z p']; [destruct J|]. cbn in E2. injection E2 as <- E2.
        assert (NK : k <> y). { intros ->. apply (decorated_iff type_attr w0) in DX. destruct DX as (b & X). destruct (inv_cached type_attr w0 rank U w o _ _ _ _ I X Q) as (k' & Q' & Wr). injection Q' as <-. pose proof (wr_lt _ _ _ _ _ _ _ Wr). lia. }
        destruct J as [J|J]; [congruence|]. destruct p' as [|z p']; [destruct J|]. cbn in E2. injection E2 as <- ->. destruct J as [-> |J]; [left; reflexivity|]. right. eapply IH; eassumption.
  Qed.
  Lemma after_doubled pre y l p' : doubled (pre ++ [y]) (p' ++ [y]) -> mro_of c = pre ++ y :: l -> forall s', after y (p' ++ y :: s') = s'.
  Proof.
    intros D2 E s'.
    assert (IY : In y (mro_of c)) by (rewrite E; apply in_or_app; right; left; reflexivity).
    assert (LY : y < n0) by (pose proof (mro_le w0 W0 c LC y IY); lia).
    assert (NP : ~ In y pre). { pose proof (mro_nodup w0 W0 c LC) as ND. rewrite E in ND. apply NoDup_remove_2 in ND. intros J. apply ND, in_or_app. left. exact J. }
    apply after_app. intros J. apply NP. apply (doubled_last pre y p' LY D2 J).
  Qed.

  Lemma call_init_exact : forall m l l' pre pre' fuel, length l <= m -> doubled l l' -> doubled pre pre' -> mro_of c = pre ++ l -> 2 * length l < fuel ->
    inits (decorated_bound o) mro_of defines takes_outer outer l (call_init w defines takes_outer alive fuel (pre' ++ l') l' None).
  Proof.
    induction m as [|m IH]; intros l l' pre pre' fuel LM H HP E F.
    - destruct l; [|cbn in LM; lia]. destruct fuel as [|fuel]; [lia|]. inversion H; subst. constructor.
    - destruct fuel as [|fuel]; [lia|]. destruct l as [|x l]; [inversion H; subst; constructor|].
      assert (IX : In x (mro_of c)) by (rewrite E; apply in_or_app; right; left; reflexivity).
      assert (LX : x < n0) by (pose proof (mro_le w0 W0 c LC x IX); lia).
      assert (NP : ~ In x pre).
      { pose proof (mro_nodup w0 W0 c LC) as ND. rewrite E in ND. apply NoDup_remove_2 in ND. intros J. apply ND, in_or_app. left. exact J. }
      assert (NP' : ~ In x pre') by (intros J; apply NP, (doubled_old type_attr w0 rank U w o I c LC _ _ _ HP LX J)).
      pose proof (KIND x IX) as KX. rewrite <- (inv_class type_attr w0 w x I LX) in KX.
      assert (E' : mro_of c = (pre ++ [x]) ++ l) by (rewrite <- app_assoc; exact E).
      cbn [length] in F, LM. inversion H as [|? ? s DX HS|? k ? s DX Q HS]; subst.
      + assert (HP' : doubled (pre ++ [x]) (pre' ++ [x])) by (apply doubled_app; [exact HP|constructor; [exact DX|constructor]]).
        assert (DB : decorated_bound o x = false).
        { unfold BicSpec.decorated_bound. unfold BicSpec.decorated in DX. destruct (type_attr o (name_of x)) as [[ | | ]|]; try reflexivity. rewrite DX. apply andb_false_r. }
        assert (EA : pre' ++ x :: s = (pre' ++ [x]) ++ s) by (rewrite <- app_assoc; reflexivity).
        cbn [call_init]. rewrite KX. destruct (defines x) eqn:DF.
        * destruct (takes_outer x) eqn:TO; [apply inits_missing; assumption|].
          apply inits_plain; auto. rewrite (after_app x pre' s NP'), EA. apply (IH l s (pre ++ [x])); auto; lia.
        * apply inits_none; auto. rewrite EA. apply (IH l s (pre ++ [x])); auto; lia.
      + assert (HP' : doubled (pre ++ [x]) (pre' ++ [k; x])) by (apply doubled_app; [exact HP|constructor; [exact DX|exact Q|constructor]]).
        pose proof DX as T. apply (decorated_iff type_attr w0) in T. destruct T as (b & T). destruct (inv_cached type_attr w0 rank U w o _ _ _ _ I T Q) as (k' & Q' & Wr). injection Q' as <-.
        assert (DB : decorated_bound o x = b) by (unfold BicSpec.decorated_bound; rewrite T, Nat.eqb_refl; apply andb_true_r).
        pose proof (wr_kind _ _ _ _ _ _ _ Wr) as WK. pose proof (wr_lt _ _ _ _ _ _ _ Wr) as WL.
        assert (EA : pre' ++ k :: x :: s = (pre' ++ [k; x]) ++ s) by (rewrite <- app_assoc; reflexivity).
        assert (AF : after x (pre' ++ k :: x :: s) = s).
        { replace (pre' ++ k :: x :: s) with ((pre' ++ [k]) ++ x :: s) by (rewrite <- app_assoc; reflexivity). apply after_app. intros J. apply in_app_or in J. destruct J as [J|[J|[]]]; [contradiction|lia]. }
        destruct b.
        * (* a bound class *)
          cbn [call_init]. rewrite WK. rewrite (inv_class type_attr w0 w x I LX). fold (mro_of x).
          assert (SX : subseq (mro_of x) (x :: l)).
          { pose proof (mro_subseq c LC x IX) as S. destruct (mro_head w0 W0 x LX) as (rx & EX). rewrite EX in S |- *. rewrite E in S. apply sub_take. apply (subseq_skip x rx pre l NP S). }
          assert (KA : forall z, In z (mro_of x) -> z < n0 /\ c_kind (the_class w0 z) = Plain).
          { intros z J. assert (JC : In z (mro_of c)) by (apply (subseq_in _ _ _ (mro_subseq c LC x IX) J)). split; [pose proof (mro_le w0 W0 c LC z JC); lia|apply KIND; exact JC]. }
          pose proof (find_split defines (mro_of x)) as FS. destruct (find defines (mro_of x)) as [y|] eqn:FD.
          -- destruct FS as (a & a2 & EM & FA & PY). rewrite EM in SX. destruct (subseq_split _ _ _ _ SX) as (sk & l2 & EL & LA).
             assert (ELn : length (x :: l) = length sk + S (length l2)) by (rewrite EL, app_length; reflexivity). cbn [length] in ELn.
             assert (KY : y < n0 /\ c_kind (the_class w0 y) = Plain) by (apply KA; rewrite EM; apply in_or_app; right; left; reflexivity).
             rewrite EM. rewrite walk; [|intros z J; apply KA; rewrite EM; apply in_or_app; left; exact J|exact FA|unfold cid in *; lia].
             match goal with |- context [call_init _ _ _ _ (fuel - ?e) _ _ _] => destruct (fuel - e) as [|f] eqn:EF end; [unfold cid in *; lia|]. cbn [call_init]. rewrite (inv_class type_attr w0 w y I (proj1 KY)), (proj2 KY), PY.
             destruct (takes_outer y) eqn:TO.
             ++ rewrite EL in H, E. destruct (doubled_split _ _ _ _ H) as (p' & s' & ES & D1 & D2).
                rewrite ES. assert (DD : doubled ((pre ++ sk) ++ [y]) ((pre' ++ p') ++ [y])) by (rewrite <- !app_assoc; apply doubled_app; assumption).
                assert (E2 : mro_of c = (pre ++ sk) ++ y :: l2) by (rewrite <- app_assoc; exact E).
                replace (after y (pre' ++ p' ++ y :: s')) with s' by (symmetry; rewrite app_assoc; apply (after_doubled _ _ _ _ DD E2)).
                apply (inits_bound _ _ _ _ _ x y l sk l2); auto.
                replace (pre' ++ p' ++ y :: s') with (((pre' ++ p') ++ [y]) ++ s') by (rewrite <- !app_assoc; reflexivity).
                apply (IH l2 s' ((pre ++ sk) ++ [y])); auto; [unfold cid in *; lia|rewrite <- app_assoc; exact E2|unfold cid in *; lia].
             ++ apply inits_unwanted; auto. rewrite FD. exact TO.
          -- pose proof (subseq_length _ _ SX) as LN. cbn [length] in LN. rewrite <- (app_nil_r (mro_of x)). rewrite walk; [|exact KA|exact FS|unfold cid in *; lia].
             match goal with |- context [call_init _ _ _ _ (fuel - ?e) _ _ _] => destruct (fuel - e) as [|f] eqn:EF end; [unfold cid in *; lia|]. cbn [call_init]. apply inits_unwanted; auto. rewrite FD. exact Logic.I.
        * destruct fuel as [|fuel]; [lia|]. cbn [call_init]. rewrite WK. cbn [call_init]. rewrite KX. destruct (defines x) eqn:DF.
          -- destruct (takes_outer x) eqn:TO; [apply inits_missing; assumption|].
             apply inits_plain; auto. rewrite AF, EA. apply (IH l s (pre ++ [x])); auto; lia.
          -- apply inits_none; auto. rewrite EA. apply (IH l s (pre ++ [x])); auto; lia.
  Qed.
End Exact.

(** ** C84: constructing an instance, any classes *)
(** What o.Inner() does, whichever classes have an __init__ (that calls super().__init__() once), whichever of those have a parameter for the outer
    object, and whether or not the outer object still exists. *)
Theorem C84_init_exact type_attr w0 rank :
  (forall c, c < length (classes w0) -> class_ok w0 c) -> (forall o, usage type_attr w0 o (rank o)) ->
  forall w o n b c fuel w' k, history type_attr w0 w -> type_attr o n = Some (VWorker b c) -> access type_attr fuel w o n = Ok (w', VClass k) ->
  forall (defines takes_outer : cid -> bool) (alive : oid -> bool),
  (forall x, In x (mro_of w0 c) -> c_kind (the_class w0 x) = Plain) ->
  forall w'' fuel', history type_attr w' w'' -> 2 * length (mro_of w0 c) < fuel' ->
  forall r, construct w'' defines takes_outer alive fuel' k = r <->
    inits (decorated_bound type_attr w0 o) (mro_of w0) defines takes_outer (if alive o then Some o else None) (mro_of w0 c) r.
Proof.
  intros W0 U w o n b c fuel w' k H T A defines takes_outer alive KIND w'' fuel' H'' F. destruct (history_inv type_attr w0 rank W0 U w0 w (inv_w0 type_attr w0) H) as (I & X).
  pose proof (access_spec type_attr w0 rank W0 U fuel w o n b c I T) as P. rewrite A in P. destruct P as (I' & _ & _ & k' & Q & E & Wr). injection Q as <-.
  destruct (history_inv type_attr w0 rank W0 U w' w'' I' H'') as (I'' & X''). destruct (u_own_name _ _ _ _ (U o) _ _ _ T) as (L & _).
  pose proof (wrapped_ext _ _ _ _ _ _ _ _ X'' Wr) as Wr''.
  assert (G : inits (decorated_bound type_attr w0 o) (mro_of w0) defines takes_outer (if alive o then Some o else None) (mro_of w0 c) (construct w'' defines takes_outer alive fuel' k)).
  { unfold construct. apply (call_init_exact type_attr w0 rank W0 U w'' o I'' defines takes_outer alive c KIND L (length (mro_of w0 c)) (mro_of w0 c) _ [] []); auto; [apply Wr''|constructor]. }
  intros r. split; [intros <-; exact G|]. intros G'. eapply inits_det; [|exact G|exact G'].
  apply (mro_nodup w0 W0 c L).
Qed.
Print Assumptions C84_init_exact.

(** The program of C82's instance, where B has no __init__: after D.__init__ comes A.__init__, and C.__init__ is left out; and where A has none either (nor object one
    that takes anything), TypeError *)
Example C84_exact_example : forall defines, defines = (fun x => existsb (Nat.eqb x) [1; 3; 4]) ->
  inits (decorated_bound ex_attr ex_w 0) (mro_of ex_w) defines (fun x => existsb (Nat.eqb x) [1; 4]) (Some 0) (mro_of ex_w 4) (Ok [(4, Some (Some 0)); (1, Some (Some 0))]).
Proof.
  intros defines ->. change (mro_of ex_w 4) with [4; 2; 3; 1; 0].
  apply (inits_bound _ _ _ _ _ 4 4 _ [] [2; 3; 1; 0] (Ok [(1, Some (Some 0))])); try (vm_compute; reflexivity).
  apply (inits_bound _ _ _ _ _ 2 1 _ [2; 3] [0] (Ok [])); try (vm_compute; reflexivity). apply inits_none; try (vm_compute; reflexivity). constructor.
Qed.
Example C84_exact_example2 : forall defines, defines = (fun x => existsb (Nat.eqb x) [3; 4]) ->
  inits (decorated_bound ex_attr ex_w 0) (mro_of ex_w) defines (fun x => existsb (Nat.eqb x) [1; 4]) (Some 0) (mro_of ex_w 4) (Err TypeError).
Proof.
  intros defines ->. change (mro_of ex_w 4) with [4; 2; 3; 1; 0].
  apply (inits_bound _ _ _ _ _ 4 4 _ [] [2; 3; 1; 0] (Err TypeError)); try (vm_compute; reflexivity).
  apply inits_unwanted; vm_compute; auto.
Qed.
