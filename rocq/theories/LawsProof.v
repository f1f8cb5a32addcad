(** combine_splits is a union of split points. *)
From Verif Require Import PyBase PyStr SplitModel SplitSpec SplitProps CombineModel CombineSpec CombineProof CombineProps.

Local Open Scope nat_scope.
Definition nonempty_str (p : str) : bool := match p with [] => false | _ => true end.
Lemma cut_zero p : cut p 0. Proof. exists [], p. auto. Qed.
Lemma pieces_unique : forall p q : list str, Forall (fun x : str => x <> []) p -> Forall (fun x : str => x <> []) q -> concat p = concat q ->
  (forall k, 0 < k < length (concat p) -> (cut p k <-> cut q k)) -> p = q.
Proof.
  induction p as [|a p IH]; intros q F1 F2 E C.
  - destruct q as [|b q]; auto. exfalso. cbn in E. inversion F2 as [|? ? N]; subst. destruct b; [congruence|discriminate].
  - destruct q as [|b q]; [exfalso; cbn in E; inversion F1 as [|? ? N]; subst; destruct a; [congruence|discriminate]|].
    inversion F1 as [|? ? N1 F1']; inversion F2 as [|? ? N2 F2']; subst. cbn [concat] in E, C.
    assert (La : 0 < length a) by (destruct a; [congruence|cbn; lia]). assert (Lb : 0 < length b) by (destruct b; [congruence|cbn; lia]).
    assert (L : length a = length b).
    { pose proof (f_equal (@length chr) E) as EL. rewrite !app_length in EL. rewrite app_length in C. destruct (Nat.lt_trichotomy (length a) (length b)) as [X|[X|X]]; auto; exfalso.
      - assert (cut (b :: q) (length a)) as Y by (apply C; [lia|]; apply cut_cons; right; split; [lia|]; rewrite Nat.sub_diag; apply cut_zero). apply cut_cons in Y. lia.
      - assert (cut (a :: p) (length b)) as Y by (apply C; [lia|]; apply cut_cons; right; split; [lia|]; rewrite Nat.sub_diag; apply cut_zero). apply cut_cons in Y. lia. }
    assert (a = b) as ->.
    { assert (H : firstn (length a) (a ++ concat p) = firstn (length b) (b ++ concat q)) by (rewrite L; f_equal; exact E).
      now rewrite !firstn_app, !Nat.sub_diag, !firstn_all, !firstn_O, !app_nil_r in H. }
    apply app_inv_head in E. f_equal. apply IH; auto. intros k K.
    assert (X : cut (b :: p) (length b + k) <-> cut (b :: q) (length b + k)) by (apply C; rewrite app_length; lia). rewrite !cut_cons in X.
    replace (length b + k - length b) with k in X by lia. split; intros Y.
    + destruct X as [X _]. destruct X as [X|[_ X]]; [right; split; [lia|auto]|lia|auto].
    + destruct X as [_ X]. destruct X as [X|[_ X]]; [right; split; [lia|auto]|lia|auto].
Qed.
Lemma concat_filter p : concat (filter nonempty_str p) = concat p.
Proof. induction p as [|[|c a] p IH]; cbn; auto. now rewrite IH. Qed.
Lemma filter_nonempty p : Forall (fun x : str => x <> []) (filter nonempty_str p).
Proof. apply Forall_forall. intros x I. apply filter_In in I. destruct I as [_ I]. destruct x; [discriminate|congruence]. Qed.
Lemma cut_filter p : forall k, 0 < k -> cut (filter nonempty_str p) k <-> cut p k.
Proof.
  induction p as [|[|c a] p IH]; intros k K; cbn [filter nonempty_str]; [tauto| |].
  - rewrite IH by auto. rewrite cut_cons. cbn [length]. rewrite Nat.sub_0_r. split; [intros X; right; split; [lia|auto]|intros [X|[_ X]]; [lia|auto]].
  - rewrite !cut_cons. destruct (Nat.eq_dec (k - length (c :: a)) 0) as [Z|Z].
    + split; intros [X|[X Y]]; auto; right; split; auto; rewrite Z; apply cut_zero.
    + rewrite IH by lia. tauto.
Qed.
Definition splits_of (s : str) (arrays : list (list str)) : Prop := forall array, In array arrays -> concat array = s.
Lemma combine_is s arrays pieces : splits_of s arrays -> concat pieces = s -> Forall (fun x : str => x <> []) pieces ->
  (forall k, 0 < k < length s -> (cut pieces k <-> exists array, In array arrays /\ cut array k)) -> combine_splits s arrays = (pieces, None).
Proof.
  intros S E F C. destruct (C48_combine s arrays S) as (p & H & Ep & Fp & Cp). rewrite H. f_equal. apply pieces_unique; auto; [congruence|].
  intros k K. rewrite Ep in K. rewrite Cp, C by auto. tauto.
Qed.

(** * the cuts multisplit makes at separators of one character *)
Section Single.
  Context (S : list chr).
  Notation seps := (map (fun c : chr => [c]) S).
  Definition at_sep (s : str) (k : nat) : Prop := exists c, nth_error s k = Some c /\ In c S.
  Lemma sep_at_single s i : sep_at seps s i <-> at_sep s i.
  Proof.
    unfold sep_at, at_sep. split.
    - intros (w & t & I & E). apply in_map_iff in I. destruct I as (c & <- & I). exists c. split; auto.
      assert (X : nth_error (skipn i s) 0 = Some c) by (rewrite E; reflexivity). revert X. clear. revert i. induction s as [|a s IH]; intros [|i]; cbn; auto; discriminate.
    - intros (c & N & I). exists [c], (skipn (Datatypes.S i) s). split; [apply in_map_iff; eauto|]. revert i N. clear. induction s as [|a s IH]; intros [|i] N; cbn in *; try discriminate; [now injection N as ->|]. apply IH, N.
  Qed.
  Lemma one_single w t : one_split true seps w t -> exists c, w = [c] /\ In c S.
  Proof. intros [I _]. apply in_map_iff in I. destruct I as (c & <- & I). eauto. Qed.
  Definition joined_pieces (l : list (str * str)) (y : str) : list str := map (fun p : str * str => fst p ++ snd p) l ++ [y].
  Definition separate_pieces (l : list (str * str)) (y : str) : list str := flat_map (fun p : str * str => [fst p; snd p]) l ++ [y].
  Lemma at_sep_app x t k : at_sep (x ++ t) (length x + k) <-> at_sep t k.
  Proof. unfold at_sep. rewrite nth_error_app2 by lia. replace (length x + k - length x) with k by lia. tauto. Qed.
  Lemma cuts_single n s l y : splits true seps n s l y -> n = None -> forall k, 0 < k < length s ->
    (cut (joined_pieces l y) k <-> at_sep s (k - 1)) /\ (cut (separate_pieces l y) k <-> at_sep s (k - 1) \/ at_sep s k).
  Proof.
    induction 1 as [s|n s F|n x w t l y NL LM O Sp IH]; intros En k K; [discriminate| |].
    - assert (N : forall i, ~ at_sep s i) by (intros i A; apply sep_at_single in A; exact (F i A)). cbn. rewrite cut_cons. 
      split; (split; [intros [X|[X _]]; lia|]); [intros X; now apply N in X|intros [X|X]; now apply N in X].
    - subst n. destruct (one_single w t O) as (c & -> & Ic). specialize (IH eq_refl).
      assert (N : forall i, i < length x -> ~ at_sep (x ++ [c] ++ t) i) by (intros i L A; apply sep_at_single in A; exact (LM i L A)).
      rewrite !app_length in K. cbn [length] in K.
      assert (Ax : at_sep (x ++ [c] ++ t) (length x)) by (exists c; split; auto; rewrite nth_error_app2, Nat.sub_diag by lia; reflexivity).
      assert (At : forall j, at_sep (x ++ [c] ++ t) (length x + 1 + j) <-> at_sep t j) by (intros j; rewrite app_assoc; replace (length x + 1) with (length (x ++ [c])) by (rewrite app_length; reflexivity); apply at_sep_app).
      unfold joined_pieces, separate_pieces. cbn [map flat_map app fst snd]. fold (joined_pieces l y). fold (separate_pieces l y). rewrite !cut_cons, app_length. cbn [length].
      destruct (Nat.lt_trichotomy k (length x)) as [X|[X|X]].
      + split; (split; [intros [Y|[Y _]]; lia|]); [intros Y; apply N in Y; [contradiction|lia]|intros [Y|Y]; apply N in Y; try contradiction; lia].
      + subst k. split; split.
        * intros [Y|[Y _]]; lia. * intros Y; apply N in Y; [contradiction|lia].
        * intros _. right. exact Ax. * intros _. right. split; [lia|]. left. lia.
      + destruct (Nat.eq_dec k (length x + 1)) as [->|X'].
        * replace (length x + 1 - 1) with (length x) by lia. split; split; auto; intros _; right; (split; [lia|]); [|right; split; [lia|]];
            [replace (length x + 1 - (length x + 1)) with 0 by lia|replace (length x + 1 - length x - 1) with 0 by lia]; apply cut_zero.
        * assert (K' : 0 < k - (length x + 1) < length t) by lia. destruct (IH _ K') as [I1 I2]. 
          replace (k - length x - 1) with (k - (length x + 1)) by lia. rewrite I1, I2.
          replace (k - 1) with (length x + 1 + (k - (length x + 1) - 1)) by lia.
          assert (E2 : at_sep (x ++ [c] ++ t) k <-> at_sep t (k - (length x + 1))) by (replace k with (length x + 1 + (k - (length x + 1))) at 1 by lia; apply At).
          rewrite At, E2. split; (split; [|intros Y; right; split; [lia|]; auto]).
          -- intros [Y|[_ Y]]; [lia|auto].
          -- intros [Y|[_ [Y|[_ Y]]]]; [lia|lia|auto].
          -- right. split; [lia|auto].
  Qed.
  Lemma splits_concat n s l y : splits true seps n s l y -> concat (joined_pieces l y) = s /\ concat (separate_pieces l y) = s.
  Proof.
    induction 1 as [s|n s F|n x w t l y NL LM O Sp [IH1 IH2]]; [cbn; rewrite app_nil_r; auto|cbn; rewrite app_nil_r; auto|].
    unfold joined_pieces, separate_pieces. cbn [map flat_map app fst snd concat]. fold (joined_pieces l y). fold (separate_pieces l y). rewrite IH1, IH2. rewrite <- app_assoc. auto.
  Qed.
End Single.
