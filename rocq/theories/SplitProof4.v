(** Proofs for multisplit with strip. *)
From Verif Require Import SplitModel SplitSpec SplitSpec2 SplitProof SplitProof2 SplitProof3 RegexProof PyBaseProof PyStrProof.
From Coq Require Import Lia.

Lemma alternating_cons x w l y : alternating ((x, w) :: l) y = x :: w :: alternating l y.
Proof. reflexivity. Qed.
Lemma alternating_hd l y : exists x t, alternating l y = x :: t /\ (l = [] -> x = y) /\ (forall w q, hd_error l = Some (w, q) -> x = w).
Proof. destruct l as [|[a b] l]; [exists y, []|eexists _, _]; (split; [reflexivity|split; cbn; congruence]). Qed.

Lemma strip_end_firstn l y : firstn (2 * length (fst (strip_end l y)) + 1) (alternating l y) = alternating (fst (strip_end l y)) (snd (strip_end l y)) /\
  length (fst (strip_end l y)) <= length l.
Proof.
  induction l as [|[x w] l [IH1 IH2]]; [cbn; auto|]. rewrite alternating_cons. cbn [strip_end].
  destruct (strip_end l y) as [l' y'] eqn:E. cbn [fst snd] in *.
  assert (K : firstn (2 * length ((x, w) :: l') + 1) (x :: w :: alternating l y) = alternating ((x, w) :: l') y' /\ length ((x, w) :: l') <= length ((x, w) :: l)).
  { cbn [length]. replace (2 * S (length l') + 1) with (S (S (2 * length l' + 1))) by lia. cbn [firstn]. rewrite IH1. split; [reflexivity|lia]. }
  destruct l' as [|q l']; [|exact K]. destruct y' as [|c y']; [|exact K]. cbn. split; [reflexivity|lia].
Qed.

Definition look (k : nat) (L : list str) : option nat := find (fun i => negb (is_nil (nth i L []))) (map (fun j => 2 * k - 2 * j) (seq 0 k)).
Lemma find_app {A} (f : A -> bool) a b : find f (a ++ b) = match find f a with Some x => Some x | None => find f b end.
Proof. induction a as [|x a IH]; cbn; auto. destruct (f x); auto. Qed.
Lemma find_map {A B} (f : B -> bool) (g : A -> B) l : find f (map g l) = option_map g (find (fun x => f (g x)) l).
Proof. induction l as [|x l IH]; cbn; auto. destruct (f (g x)); auto. Qed.
Lemma find_ext_in {A} (f g : A -> bool) l : (forall x, In x l -> f x = g x) -> find f l = find g l.
Proof. induction l as [|x l IH]; cbn; auto. intros H. rewrite (H x) by auto. rewrite IH by auto. auto. Qed.
Lemma look_S k x w L : look (S k) (x :: w :: L) = match look k L with Some i => Some (i + 2) | None => if is_nil (nth 0 L []) then None else Some 2 end.
Proof.
  unfold look. rewrite seq_S, map_app, find_app. cbn [map Nat.add].
  assert (E : find (fun i => negb (is_nil (nth i (x :: w :: L) []))) (map (fun j => 2 * S k - 2 * j) (seq 0 k)) = option_map (fun i => i + 2) (find (fun i => negb (is_nil (nth i L []))) (map (fun j => 2 * k - 2 * j) (seq 0 k)))).
  { rewrite (map_ext_in _ (fun j => (2 * k - 2 * j) + 2)) by (intros j I; apply in_seq in I; lia).
    rewrite <- (map_map (fun j => 2 * k - 2 * j) (fun i => i + 2)). rewrite find_map. f_equal. apply find_ext_in. intros i _. replace (i + 2) with (S (S i)) by lia. reflexivity. }
  rewrite E. destruct (find _ (map (fun j => 2 * k - 2 * j) (seq 0 k))) as [i|]; cbn [option_map]; auto.
  replace (2 * S k - 2 * k) with 2 by lia. cbn [find nth]. destruct (nth 0 L []); reflexivity.
Qed.
Lemma look_strip_end l y : let '(l', y') := strip_end l y in
  match look (length l) (alternating l y) with
  | Some i => i = 2 * length l' /\ l' <> [] /\ y' <> []
  | None => l' = [] /\ y' = nth 0 (alternating l y) []
  end.
Proof.
  induction l as [|[x w] l IH]; [cbn; auto|]. rewrite alternating_cons. cbn [strip_end length]. rewrite look_S.
  destruct (strip_end l y) as [l' y']. destruct (look (length l) (alternating l y)) as [i|].
  - destruct IH as (-> & N1 & N2). destruct l' as [|q l']; [congruence|]. cbn [length]. split; [lia|]. split; [discriminate|auto].
  - destruct IH as (-> & ->). destruct (nth 0 (alternating l y) []) as [|c t]; cbn [is_nil nth length]; [split; reflexivity|]. split; [reflexivity|]. split; discriminate.
Qed.
Lemma last_strip_end l y : last_non_empty (alternating l y) = 2 * length (fst (strip_end l y)).
Proof.
  pose proof (look_strip_end l y) as H. unfold last_non_empty. rewrite alternating_length.
  replace ((2 * length l + 1) / 2) with (length l) by (rewrite Nat.mul_comm, Nat.div_add_l by lia; change (1 / 2) with 0; lia).
  rewrite (map_ext _ (fun j => 2 * length l - 2 * j)) by (intros; lia). fold (look (length l) (alternating l y)).
  destruct (strip_end l y) as [l' y']. cbn [fst]. destruct (look _ _) as [i|]; [apply H|]. destruct H as [-> _]. reflexivity.
Qed.

Lemma evens_alternating l y : evens (alternating l y) = map fst l ++ [y].
Proof. induction l as [|[x w] l IH]; [reflexivity|]. rewrite alternating_cons. cbn [evens map fst app]. now rewrite IH. Qed.
Lemma splits_length separate seps n s l y : splits separate seps (Some n) s l y -> length l <= n.
Proof. remember (Some n) as o. intros S. revert n Heqo. induction S; intros m Hm; subst; cbn; try lia. destruct m as [|m]; try congruence. specialize (IHS m eq_refl). lia. Qed.
(** what is left of the list of strings and separators *)
Lemma progressive_cut n l y : length l <= n -> (if (Z.of_nat (last_non_empty (alternating l y) + 2) <? 1 + 2 * Z.of_nat n)%Z
    then firstn (last_non_empty (alternating l y) + 1) (alternating l y) else alternating l y) = alternating (fst (strip_end l y)) (snd (strip_end l y)).
Proof.
  intros L. rewrite last_strip_end. destruct (strip_end_firstn l y) as [F Le]. rewrite F.
  destruct (Z.ltb_spec (Z.of_nat (2 * length (fst (strip_end l y)) + 2)) (1 + 2 * Z.of_nat n)) as [H|H]; auto.
  assert (length (fst (strip_end l y)) = length l) by lia. rewrite <- F, H0. symmetry. apply firstn_all2. rewrite alternating_length. lia.
Qed.

Lemma mirror_exists l y : exists l' x, alternating l' x = rev (map (@rev chr) (alternating l y)) /\ map fst l' ++ [x] = rev (map (@rev chr) (map fst l ++ [y])).
Proof.
  induction l as [|[x w] l (l' & x' & E & F)].
  - exists [], (rev y). split; reflexivity.
  - exists (l' ++ [(x', rev w)]), (rev x). rewrite alternating_cons. cbn [map rev fst app]. rewrite <- E, <- F. split.
    + unfold alternating. rewrite flat_map_app. cbn. rewrite <- !app_assoc. reflexivity.
    + rewrite map_app. reflexivity.
Qed.
Lemma strip_start_snoc l x w y : strip_start (l ++ [(x, w)]) y = match strip_start l x with ([], []) => ([], y) | (l', x') => (l' ++ [(x', w)], y) end.
Proof.
  induction l as [|[a b] l IH]; cbn [app strip_start].
  - destruct x; reflexivity.
  - destruct a as [|c a]; [exact IH|]. reflexivity.
Qed.
Lemma strip_mirror l y : forall l' x, alternating l' x = rev (map (@rev chr) (alternating l y)) ->
  alternating (fst (strip_start l' x)) (snd (strip_start l' x)) = rev (map (@rev chr) (alternating (fst (strip_end l y)) (snd (strip_end l y)))).
Proof.
  induction l as [|[a w] l IH]; intros l' x E.
  - destruct l' as [|p l']; [exact E|]. exfalso. apply (f_equal (@length _)) in E. rewrite rev_length, map_length, !alternating_length in E. cbn in E. lia.
  - destruct (mirror_exists l y) as (l1 & x1 & E1 & _). rewrite alternating_cons in E. cbn [map rev] in E. rewrite <- E1 in E.
    assert (Q : alternating l' x = alternating (l1 ++ [(x1, rev w)]) (rev a)).
    { rewrite E. unfold alternating. rewrite flat_map_app. cbn. rewrite <- !app_assoc. reflexivity. }
    apply alternating_inj in Q as [-> ->]. rewrite strip_start_snoc. cbn [strip_end].
    specialize (IH l1 x1 E1). destruct (strip_start l1 x1) as [l2 x2], (strip_end l y) as [l3 y3]. cbn [fst snd] in IH.
    assert (K : alternating (l2 ++ [(x2, rev w)]) (rev a) = rev (map (@rev chr) (alternating ((a, w) :: l3) y3))).
    { rewrite alternating_cons. cbn [map rev]. rewrite <- IH. unfold alternating. rewrite flat_map_app. cbn. rewrite <- !app_assoc. reflexivity. }
    destruct l2 as [|q l2], l3 as [|q3 l3].
    + cbn in IH. injection IH as ->. destruct y3 as [|c y3]; [reflexivity|]. cbn [rev] in *. destruct (rev y3 ++ [c]) eqn:R; [destruct (rev y3); discriminate|]. rewrite <- R in *. exact K.
    + exfalso. apply (f_equal (@length _)) in IH. rewrite rev_length, map_length, !alternating_length in IH. cbn in IH. lia.
    + exfalso. apply (f_equal (@length _)) in IH. rewrite rev_length, map_length, !alternating_length in IH. cbn in IH. lia.
    + exact K.
Qed.

Definition strip_far (reverse : bool) (l : list (str * str)) (y : str) : list (str * str) * str := if reverse then strip_start l y else strip_end l y.
Lemma gen_progressive s seps keep n reverse separate : nonempty seps -> n <> 0 -> exists l y,
  split_from reverse separate seps (Some n) s l y /\
  multisplit_gen s seps keep (Some (Z.of_nat n)) reverse separate Progressive true = present keep (fst (strip_far reverse l y)) (snd (strip_far reverse l y)).
Proof.
  intros NE Nn. unfold multisplit_gen. destruct (Z.eqb_spec (Z.of_nat n) 0); [lia|]. destruct (Z.eqb_spec (Z.of_nat n) (-1)); [lia|]. rewrite Nat2Z.id.
  assert (P : forall l y L, L = (match keep with KeepFalse => map fst l ++ [y] | _ => alternating l y end) ->
    match keep with
    | KeepFalse | Alternating => map Str L
    | _ => map (fun p => match keep with AsPairs => Two (fst p) (snd p) | _ => Str (fst p ++ snd p) end)
           (in_pairs (if Nat.odd (length L) then L ++ [[]] else L))
    end = present keep l y) by (intros; apply present_alternating; auto).
  destruct reverse; cbn [split_from strip_far].
  - pose proof (reverse_separators_same seps) as RS.
    rewrite (re_split_same separate (reverse_separators seps) (map (@rev chr) seps)); auto using nonempty_rev.
    2:{ eapply nonempty_same; [apply same_sym; exact RS|]. now apply nonempty_rev. }
    pose proof (split_spec separate (map (@rev chr) seps) (Some n) (rev s) (nonempty_rev _ NE)) as S.
    destruct (re_split _ _ (rev s)) as [l y]. cbn [fst snd] in S. pose proof (splits_length _ _ _ _ _ _ S) as Ln.
    apply splits_rev in S. rewrite rev_involutive in S. destruct S as (l' & x & S & Ea & Ef). exists l', x. split; auto.
    pose proof (progressive_cut n l y Ln) as C. change (with_seps (l, y)) with (alternating l y). rewrite C.
    pose proof (strip_mirror l y l' x Ea) as M. destruct (strip_start l' x) as [l2 x2], (strip_end l y) as [l3 y3]. cbn [fst snd] in *.
    etransitivity; [|apply (P l2 x2 _ eq_refl)]. destruct keep; rewrite ?M; try reflexivity.
    rewrite evens_alternating. destruct (mirror_exists l3 y3) as (l4 & x4 & E4 & F4). rewrite <- M in E4. apply alternating_inj in E4 as [-> ->]. rewrite <- F4. reflexivity.
  - pose proof (split_spec separate seps (Some n) s NE) as S.
    destruct (re_split _ _ s) as [l y]. cbn [fst snd] in S. exists l, y. split; auto.
    pose proof (progressive_cut n l y (splits_length _ _ _ _ _ _ S)) as C. change (with_seps (l, y)) with (alternating l y). rewrite C.
    destruct (strip_end l y) as [l3 y3]. cbn [fst snd] in *.
    etransitivity; [|apply (P l3 y3 _ eq_refl)]. destruct keep; try reflexivity. rewrite evens_alternating. reflexivity.
Qed.

(** ---- str.split() ---- *)
Lemma forallb_app' {A} (f : A -> bool) a b : forallb f (a ++ b) = forallb f a && forallb f b.
Proof. apply forallb_app. Qed.
Lemma ws_prefix p n s l : ws_split p n s l -> forall b, forallb p b = true -> ws_split p n (b ++ s) l.
Proof.
  destruct 1; intros b B.
  - apply ws_none. rewrite forallb_app, B. auto.
  - rewrite app_assoc. apply ws_rest; auto. rewrite forallb_app, B; auto.
  - rewrite app_assoc. apply ws_word; auto. rewrite forallb_app, B; auto.
Qed.
Lemma ws_suffix p s l : ws_split p None s l -> forall b, forallb p b = true -> ws_split p None (s ++ b) l.
Proof.
  remember None as o. induction 1; intros b B; subst.
  - apply ws_none. rewrite forallb_app, B. now rewrite H.
  - discriminate.
  - rewrite <- !app_assoc. apply ws_word; auto.
    destruct r as [|c r]; cbn; auto. destruct b as [|c b]; auto. cbn in B. apply andb_true_iff in B. tauto.
Qed.
Lemma ws_nonempty p n s l : ws_split p n s l -> Forall (fun w : str => w <> []) l.
Proof. induction 1; repeat constructor; auto. discriminate. Qed.
Lemma ws_fun p n s l : ws_split p n s l -> forall l', ws_split p n s l' -> l = l'.
Proof.
  assert (AP : forall (a b : str) c t, forallb p (a ++ c :: t) = true -> p c = false -> False).
  { intros a b c t H C. rewrite forallb_app in H. cbn in H. rewrite C, andb_false_r in H. discriminate. }
  assert (PRE : forall (a b t r : str) c d, forallb p a = true -> forallb p b = true -> p c = false -> p d = false -> a ++ c :: t = b ++ d :: r -> a = b /\ c :: t = d :: r).
  { induction a as [|x a IH]; intros [|y b] t r c d A B C D E; cbn in *; auto.
    - injection E as -> ->. rewrite C in B. discriminate.
    - injection E as -> <-. rewrite D in A. discriminate.
    - injection E as -> E. apply andb_true_iff in A as [_ A], B as [_ B]. destruct (IH _ _ _ _ _ A B C D E) as [-> ->]. auto. }
  assert (WRD : forall (w w' r r' : str), forallb (fun c => negb (p c)) w = true -> forallb (fun c => negb (p c)) w' = true ->
    match r with c :: _ => p c = true | [] => True end -> match r' with c :: _ => p c = true | [] => True end -> w ++ r = w' ++ r' -> w = w' /\ r = r').
  { induction w as [|x w IH]; intros [|y w'] r r' A B C D E; cbn in *; auto.
    - subst. cbn in C. apply andb_true_iff in B as [B _]. rewrite C in B. discriminate.
    - subst. cbn in D. apply andb_true_iff in A as [A _]. rewrite D in A. discriminate.
    - injection E as -> E. apply andb_true_iff in A as [_ A], B as [_ B]. destruct (IH _ _ _ A B C D E) as [-> ->]. auto. }
  induction 1 as [n a A|a c t A C|n a w r l N A W F R S IH]; intros l' H'.
  - inversion H' as [|a' c t A' C E|n' a' w r l1 N A' W F R S E]; subst; auto; exfalso.
    + eapply (AP a'); eauto.
    + destruct w as [|c w]; [congruence|]. cbn in F. apply andb_true_iff in F as [F _]. apply negb_true_iff in F. eapply (AP a' [] c (w ++ r)); eauto.
  - inversion H' as [n a' A' E1 E2|a' c' t' A' C' E|n' a' w r l1 N A' W F R S E]; subst.
    + exfalso. eapply (AP a); eauto.
    + match goal with Q : _ ++ _ :: _ = _ ++ _ :: _ |- _ => destruct (PRE _ _ _ _ _ _ A' A C' C Q) as [_ Q'] end. now rewrite Q'.
    + congruence.
  - destruct w as [|c w]; [congruence|]. pose proof F as F'. cbn in F'. apply andb_true_iff in F' as [C _]. apply negb_true_iff in C.
    inversion H' as [n' a' A' E1 E2|a' c' t' A' C' E|n' a' w' r' l1 N' A' W' F2 R' S' E]; subst.
    + exfalso. eapply (AP a [] c (w ++ r)); eauto.
    + congruence.
    + destruct w' as [|c' w']; [congruence|]. pose proof F2 as F3. cbn in F3. apply andb_true_iff in F3 as [C' _]. apply negb_true_iff in C'.
      cbn [app] in *. match goal with Q : _ ++ _ :: _ = _ ++ _ :: _ |- _ => destruct (PRE _ _ _ _ _ _ A' A C' C Q) as [_ Q2] end. rename Q2 into Q. change (c' :: w' ++ r') with ((c' :: w') ++ r') in Q. change (c :: w ++ r) with ((c :: w) ++ r) in Q.
      apply WRD in Q as [-> ->]; auto. f_equal. auto.
Qed.

Lemma class_sep_at p seps s i : class_like p seps -> i < length s -> p (nth i s 0%N) = true -> sep_at seps s i.
Proof.
  intros [_ C] L P. exists [nth i s 0%N], (skipn (S i) s). split; auto. cbn [app].
  clear P C. revert i L; induction s as [|c s IH]; intros i L; cbn in L; [lia|]. destruct i; [reflexivity|]. cbn [skipn nth]. apply IH. lia.
Qed.
Lemma class_free p seps s : class_like p seps -> sep_free seps s -> forallb (fun c => negb (p c)) s = true.
Proof.
  intros C F. apply forallb_forall. intros c I. destruct (In_nth s c 0%N I) as (i & L & <-). destruct (p (nth i s 0%N)) eqn:E; auto.
  exfalso. apply (F i). eapply class_sep_at; eauto.
Qed.
Lemma class_left p seps (x s : str) : class_like p seps -> (forall i, i < length x -> ~ sep_at seps (x ++ s) i) -> forallb (fun c => negb (p c)) x = true.
Proof.
  intros C F. apply forallb_forall. intros c I. destruct (In_nth x c 0%N I) as (i & L & <-). destruct (p (nth i x 0%N)) eqn:E; auto.
  exfalso. apply (F i L). eapply class_sep_at; [eauto|rewrite app_length; lia|]. rewrite app_nth1; auto.
Qed.
Lemma class_run p seps w t : class_like p seps -> run seps w t -> w <> [] /\ forallb p w = true /\ match t with c :: _ => p c = false | [] => True end.
Proof.
  intros C. induction 1 as [w t [I _] N|w w' t [I _] R IH].
  - destruct (proj1 C w I) as [A B]. repeat split; auto. destruct t as [|c t]; auto. destruct (p c) eqn:E; auto. exfalso. apply N.
    eapply class_sep_at; eauto. cbn; lia.
  - destruct (proj1 C w I) as [A B]. destruct IH as (A' & B' & C'). repeat split; auto; [destruct w; [congruence|discriminate]|]. rewrite forallb_app, B, B'. auto.
Qed.

Lemma splits_words p seps n s l y : class_like p seps -> splits false seps n s l y -> match s with c :: _ => p c = false | [] => False end ->
  ws_split p n s (map fst (fst (strip_end l y)) ++ [snd (strip_end l y)]).
Proof.
  intros C. induction 1 as [s|n s F|n x w t l y Hn Lf O Sp IH]; intros St.
  - cbn. destruct s as [|c s]; [tauto|]. apply (ws_rest p []); auto.
  - cbn. destruct s as [|c s]; [tauto|]. destruct n as [[|n]|].
    + apply (ws_rest p []); auto.
    + rewrite <- (app_nil_r (c :: s)) at 1. apply (ws_word p (Some (S n)) [] (c :: s) [] []); auto; try discriminate.
      * eapply class_free; eauto.
      * apply ws_none; auto.
    + rewrite <- (app_nil_r (c :: s)) at 1. apply (ws_word p None [] (c :: s) [] []); auto; try discriminate.
      * eapply class_free; eauto.
      * apply ws_none; auto.
  - cbn [one_split] in O. destruct (class_run p seps w t C O) as (W1 & W2 & W3). pose proof (class_left p seps x (w ++ t) C Lf) as X.
    assert (Nx : x <> []).
    { intros ->. cbn in St. destruct w as [|c w]; [congruence|]. cbn in *. rewrite St in W2. discriminate. }
    assert (Wr : match w ++ t with c :: _ => p c = true | [] => True end).
    { destruct w as [|c w]; [congruence|]. cbn in *. apply andb_true_iff in W2. tauto. }
    destruct t as [|c t].
    + assert (l = [] /\ y = []) as [-> ->].
      { inversion Sp; subst; auto. exfalso. destruct x0; [|discriminate]. destruct w0; [|discriminate]. destruct (class_run p seps [] t C H2) as [? _]; congruence. }
      cbn. apply (ws_word p n [] x (w ++ []) []); auto. apply ws_none. rewrite app_nil_r. auto.
    + specialize (IH W3). pose proof (ws_nonempty _ _ _ _ IH) as NEs. cbn [strip_end]. destruct (strip_end l y) as [l' y']. cbn [fst snd] in *.
      assert (K : ws_split p n (x ++ w ++ c :: t) (map fst ((x, w) :: l') ++ [y'])).
      { cbn [map fst app]. apply (ws_word p n [] x (w ++ c :: t)); auto. apply ws_prefix; auto. }
      destruct l' as [|q l']; [|exact K]. destruct y' as [|d y']; [|exact K]. cbn in NEs. inversion NEs; congruence.
Qed.
Lemma strip_end_last l y : y <> [] -> strip_end l y = (l, y).
Proof. intros N. induction l as [|[x w] l IH]; cbn; auto. rewrite IH. destruct l; auto. destruct y; auto. congruence. Qed.
Lemma class_rev p seps : class_like p seps -> class_like p (map (@rev chr) seps).
Proof.
  intros [A B]. split.
  - intros w I. apply in_map_rev in I. destruct (A _ I) as [N F]. split; [intros ->; apply N; reflexivity|].
    rewrite forallb_forall in *. intros c J. apply F. now apply in_rev in J.
  - intros c P. apply in_map_rev. apply (B c P).
Qed.
