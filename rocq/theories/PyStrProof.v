(** Facts about strings and decimal conversion. *)
From Verif Require Import PyStr.

Lemma str_eqb_eq a : forall b, str_eqb a b = true <-> a = b.
Proof.
  induction a as [|x a IH]; intros [|y b]; cbn; split; intros H; try discriminate; auto.
  - apply andb_true_iff in H. destruct H as [H1 H2]. apply N.eqb_eq in H1. apply IH in H2. congruence.
  - injection H as -> ->. rewrite N.eqb_refl. now apply IH.
Qed.
Lemma str_eqb_refl a : str_eqb a a = true. Proof. now apply str_eqb_eq. Qed.

Lemma int_of_app a b : int_of (a ++ b) = fold_left (fun acc c => (acc * 10 + Z.of_N (c - 48))%Z) b (int_of a).
Proof. unfold int_of. apply fold_left_app. Qed.
Lemma int_of_nonneg s : (0 <= int_of s)%Z.
Proof.
  unfold int_of. assert (G : forall z, (0 <= z)%Z -> (0 <= fold_left (fun acc c => acc * 10 + Z.of_N (c - 48)) s z)%Z).
  { induction s as [|c s IH]; intros z Hz; cbn; auto. apply IH. lia. }
  apply G. lia.
Qed.

Lemma dec_aux_acc f : forall n acc, dec_aux f n acc = dec_aux f n [] ++ acc.
Proof.
  induction f as [|f IH]; intros n acc; cbn [dec_aux]; auto.
  destruct (n <? 10)%N; auto.
  rewrite IH. rewrite (IH _ [_]). rewrite <- app_assoc. reflexivity.
Qed.
Lemma dec_aux_spec f : forall n, (n < 2 ^ N.of_nat f)%N ->
  int_of (dec_aux f n []) = Z.of_N n /\ forallb is_digit (dec_aux f n []) = true /\ (f <> O -> dec_aux f n [] <> []).
Proof.
  induction f as [|f IH]; intros n H.
  - cbn in *. assert (n = 0%N) by lia. subst. repeat split; auto.
  - cbn [dec_aux]. assert (D : (n mod 10 < 10)%N) by (apply N.mod_lt; lia).
    assert (DD : is_digit (48 + n mod 10)%N = true).
    { revert D. generalize (n mod 10)%N. intros d D. unfold is_digit, between. apply andb_true_iff. split; apply N.leb_le; lia. }
    destruct (n <? 10)%N eqn:L.
    + apply N.ltb_lt in L. rewrite N.mod_small in * by lia. split; [|split; [|discriminate]].
      * unfold int_of. cbn [fold_left]. replace (48 + n - 48)%N with n by lia. lia.
      * cbn [forallb]. now rewrite DD.
    + apply N.ltb_ge in L. rewrite dec_aux_acc.
      destruct (IH (n / 10)%N) as (I1 & I2 & I3).
      { rewrite Nat2N.inj_succ, N.pow_succ_r' in H. apply N.div_lt_upper_bound; lia. }
      split; [|split].
      * rewrite int_of_app. cbn [fold_left]. rewrite I1.
        rewrite (N.add_comm 48), N.add_sub.
        pose proof (N.div_mod n 10 ltac:(discriminate)) as Q. revert Q. generalize (n / 10)%N, (n mod 10)%N. intros; lia.
      * rewrite forallb_app, I2. cbn [forallb]. now rewrite DD.
      * intros _ Q. apply app_eq_nil in Q. destruct Q; discriminate.
Qed.
Lemma dec_spec n : int_of (dec n) = Z.of_N n /\ forallb is_digit (dec n) = true /\ dec n <> [].
Proof.
  unfold dec. destruct (dec_aux_spec (S (N.to_nat (N.size n))) n) as (A & B & C).
  - rewrite Nat2N.inj_succ, N2Nat.id, N.pow_succ_r'. pose proof (N.size_gt n). lia.
  - split; [auto|split; [auto|apply C; discriminate]].
Qed.

Lemma split1_join (p : chr -> bool) (c : chr) (l : list str) : p c = true -> l <> [] ->
  Forall (fun x => forallb (fun d => negb (p d)) x = true) l ->
  split1 p (join [c] l) = l.
Proof.
  intros Hc. induction l as [|x l IH]; intros NE F; [congruence|].
  inversion F as [|? ? Fx Fl]; subst.
  assert (Base : forall x, forallb (fun d => negb (p d)) x = true -> split1 p x = [x]).
  { clear. induction x as [|d x IH]; cbn; auto. intros H. apply andb_true_iff in H. destruct H as [H1 H2].
    apply negb_true_iff in H1. rewrite H1, (IH H2). reflexivity. }
  destruct l as [|y l]; [cbn; now apply Base|].
  assert (Step : forall x r, forallb (fun d => negb (p d)) x = true -> split1 p (x ++ c :: r) = x :: split1 p r).
  { clear - Hc. induction x as [|d x IH]; intros r H; cbn; [now rewrite Hc|].
    cbn in H. apply andb_true_iff in H. destruct H as [H1 H2].
    apply negb_true_iff in H1. rewrite H1, (IH r H2). reflexivity. }
  change (join [c] (x :: y :: l)) with (x ++ c :: join [c] (y :: l)). rewrite Step by auto.
  f_equal. apply IH; auto. discriminate.
Qed.
Lemma join_split1 (p : chr -> bool) (c : chr) s : (forall d, p d = true -> d = c) -> join [c] (split1 p s) = s.
Proof.
  intros Hp. induction s as [|d s IH]; cbn; auto.
  assert (NE : split1 p s <> []) by (destruct s as [|e s]; cbn; [discriminate|]; destruct (p e); [discriminate|]; destruct (split1 p s); discriminate).
  destruct (p d) eqn:E.
  - apply Hp in E. subst d. destruct (split1 p s) as [|x r]; [congruence|].
    change (join [c] ([] :: x :: r)) with (c :: join [c] (x :: r)). now rewrite IH.
  - destruct (split1 p s) as [|x r]; [congruence|]. rewrite <- IH. destruct r; reflexivity.
Qed.
Lemma split1_nonnil p s : split1 p s <> [].
Proof.
  destruct s as [|e s]; cbn; [discriminate|]. destruct (p e); [discriminate|]; destruct (split1 p s); discriminate.
Qed.
Lemma split1_no p s : Forall (fun x => forallb (fun d => negb (p d)) x = true) (split1 p s).
Proof.
  induction s as [|d s IH]; cbn; [repeat constructor|].
  destruct (p d) eqn:E; [constructor; auto|]. destruct (split1 p s) as [|x r].
  - repeat constructor. cbn. now rewrite E.
  - inversion IH; subst. constructor; auto. cbn. now rewrite E.
Qed.
