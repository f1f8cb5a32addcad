(** Proofs about bound inner classes: which __init__ runs. *)
From Verif Require Import PyStrProof BicModel BicSpec BicProof BicProof2.

Section Construct.
  Context (type_attr : oid -> str -> option value) (w0 : world) (rank : oid -> cid -> nat).
  Hypothesis W0 : forall c, c < length (classes w0) -> class_ok w0 c.
  Hypothesis U : forall o, usage type_attr w0 o (rank o).
  Notation name_of := (name_of w0).
  Notation mro_of := (mro_of w0).
  Notation decorated := (decorated type_attr w0).
  Notation decorated_bound := (decorated_bound type_attr w0).
  Notation n0 := (length (classes w0)).
  Context (w : world) (o : oid) (I : inv type_attr w0 w) (defines takes_outer : cid -> bool) (alive : oid -> bool) (c : cid).
  Hypothesis KIND : forall x, In x (mro_of c) -> c_kind (the_class w0 x) = Plain.
  Hypothesis INIT : forall x, In x (mro_of c) -> if decorated_bound o x then defines x = true /\ takes_outer x = true else takes_outer x = false.
  Hypothesis LC : c < n0.
  Notation doubled := (doubled type_attr w0 w o).
  Definition ev (x : cid) : event := (x, if decorated_bound o x then Some (if alive o then Some o else None) else None).

  Lemma doubled_old l l' x : doubled l l' -> x < n0 -> In x l' -> In x l.
  Proof.
    intros H L. induction H as [|y l l' E H IH|y k l l' E Q H IH]; intros J; [destruct J| |].
    - destruct J as [-> |J]; [left; reflexivity|right; auto].
    - destruct J as [-> |[-> |J]]; [|left; reflexivity|right; auto]. apply (decorated_iff type_attr w0) in E. destruct E as (b & E).
      destruct (inv_cached type_attr w0 rank U w o _ _ _ _ I E Q) as (k & Q' & Wr). injection Q' as <-. pose proof (wr_lt _ _ _ _ _ _ _ Wr). lia.
  Qed.
  Lemma doubled_app l1 l2 m1 m2 : doubled l1 m1 -> doubled l2 m2 -> doubled (l1 ++ l2) (m1 ++ m2).
  Proof. intros H H2. induction H; cbn [app]; [exact H2|constructor; assumption|constructor; assumption]. Qed.
  Lemma after_app x l1 l2 : ~ In x l1 -> after x (l1 ++ x :: l2) = l2.
  Proof.
    induction l1 as [|y l1 IH]; cbn [app after]; intros H; [rewrite Nat.eqb_refl; reflexivity|]. destruct (Nat.eqb_spec y x) as [-> |]; [destruct H; left; reflexivity|].
    apply IH. intros J. apply H. right. exact J.
  Qed.
  Lemma call_init_spec : forall l l' pre pre' fuel, doubled l l' -> doubled pre pre' -> mro_of c = pre ++ l -> 2 * length l < fuel ->
    call_init w defines takes_outer alive fuel (pre' ++ l') l' None = Ok (map ev (filter defines l)).
  Proof.
    induction l as [|x l IH]; intros l' pre pre' fuel H HP E F; (destruct fuel as [|fuel]; [lia|]).
    - inversion H; subst. reflexivity.
    - assert (IX : In x (mro_of c)) by (rewrite E; apply in_or_app; right; left; reflexivity).
      assert (LX : x < n0) by (pose proof (mro_le w0 W0 c LC x IX); lia).
      assert (NP : ~ In x pre).
      { pose proof (mro_nodup w0 W0 c LC) as ND. rewrite E in ND. apply NoDup_remove_2 in ND. intros J. apply ND, in_or_app. left. exact J. }
      assert (NP' : ~ In x pre') by (intros J; apply NP, (doubled_old _ _ _ HP LX J)).
      pose proof (KIND x IX) as KX. pose proof (INIT x IX) as IN. rewrite <- (inv_class type_attr w0 w x I LX) in KX.
      cbn [length] in F. inversion H as [|? ? s DX HS|? k ? s DX Q HS]; subst.
      + assert (E' : mro_of c = (pre ++ [x]) ++ l) by (rewrite <- app_assoc; exact E).
        assert (HP' : doubled (pre ++ [x]) (pre' ++ [x])) by (apply doubled_app; [exact HP|constructor; [exact DX|constructor]]).
        assert (DB : decorated_bound o x = false).
        { unfold BicSpec.decorated_bound. unfold BicSpec.decorated in DX. destruct (type_attr o (name_of x)) as [[ | | ]|]; try reflexivity. rewrite DX. apply andb_false_r. }
        rewrite DB in IN. cbn [call_init]. rewrite KX. cbn [filter].
        assert (EA : pre' ++ x :: s = (pre' ++ [x]) ++ s) by (rewrite <- app_assoc; reflexivity).
        destruct (defines x).
        * rewrite IN, (after_app x pre' s NP'). rewrite EA, (IH s (pre ++ [x]) (pre' ++ [x]) fuel HS HP' E') by lia. cbn [rmap rbind map]. unfold ev at 2. rewrite DB. reflexivity.
        * rewrite EA. apply (IH s (pre ++ [x])); [exact HS|exact HP'|exact E'|lia].
      + assert (E' : mro_of c = (pre ++ [x]) ++ l) by (rewrite <- app_assoc; exact E).
        assert (HP' : doubled (pre ++ [x]) (pre' ++ [k; x])) by (apply doubled_app; [exact HP|constructor; [exact DX|exact Q|constructor]]).
        pose proof DX as T. apply (decorated_iff type_attr w0) in T. destruct T as (b & T). destruct (inv_cached type_attr w0 rank U w o _ _ _ _ I T Q) as (k' & Q' & Wr). injection Q' as <-.
        assert (DB : decorated_bound o x = b) by (unfold BicSpec.decorated_bound; rewrite T, Nat.eqb_refl; apply andb_true_r).
        pose proof (wr_kind _ _ _ _ _ _ _ Wr) as WK. pose proof (wr_lt _ _ _ _ _ _ _ Wr) as WL.
        assert (EA : pre' ++ k :: x :: s = (pre' ++ [k; x]) ++ s) by (rewrite <- app_assoc; reflexivity).
        assert (AF : after x (pre' ++ k :: x :: s) = s).
        { replace (pre' ++ k :: x :: s) with ((pre' ++ [k]) ++ x :: s) by (rewrite <- app_assoc; reflexivity). apply after_app. intros J. apply in_app_or in J. destruct J as [J|[J|[]]]; [contradiction|lia]. }
        destruct fuel as [|fuel]; [lia|]. rewrite DB in IN. destruct b; cbn [call_init]; rewrite WK.
        * destruct IN as (IN1 & IN2). rewrite (inv_class type_attr w0 w x I LX). fold (mro_of x). destruct (mro_head w0 W0 x LX) as (rx & ->).
          cbn [call_init]. rewrite KX. cbn [filter]. rewrite IN1, IN2, AF. rewrite EA, (IH s (pre ++ [x]) (pre' ++ [k; x]) _ HS HP' E') by lia. cbn [rmap rbind map]. unfold ev at 2. rewrite DB. reflexivity.
        * cbn [call_init]. rewrite KX. cbn [filter]. destruct (defines x).
          -- rewrite IN, AF. rewrite EA, (IH s (pre ++ [x]) (pre' ++ [k; x]) _ HS HP' E') by lia. cbn [rmap rbind map]. unfold ev at 2. rewrite DB. reflexivity.
          -- rewrite EA. apply (IH s (pre ++ [x])); [exact HS|exact HP'|exact E'|lia].
  Qed.
  Lemma construct_spec b k fuel : wrapped type_attr w0 w o b c k -> 2 * length (mro_of c) < fuel ->
    construct w defines takes_outer alive fuel k = Ok (map ev (filter defines (mro_of c))).
  Proof.
    intros Wr F. unfold construct. apply (call_init_spec (mro_of c) (c_mro (the_class w k)) [] [] fuel); [apply Wr|constructor|reflexivity|exact F].
  Qed.
End Construct.
