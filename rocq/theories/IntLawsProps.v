(** C147: the laws of int_to_words. *)
From Verif Require Import PyBase PyStr IntWordsModel IntWordsSpec IntWordsProof IntWordsProps.

(** [plainer a b]: b is a without some of its commas in front of blanks, and with some " and " made " ". *)
Inductive plainer : str -> str -> Prop :=
| plainer_nil : plainer [] []
| plainer_keep c a b : plainer a b -> plainer (c :: a) (c :: b)
| plainer_comma a b : plainer a b -> plainer (u ", " ++ a) (u " " ++ b)
| plainer_and a b : plainer a b -> plainer (u " and " ++ a) (u " " ++ b).
Lemma plainer_refl s : plainer s s.
Proof. induction s; constructor; auto. Qed.
Lemma plainer_app a b c d : plainer a b -> plainer c d -> plainer (a ++ c) (b ++ d).
Proof. intros H H2. induction H as [|x a b H IH|a b H IH|a b H IH]; [exact H2|cbn; now constructor| |]; rewrite <- !app_assoc; now constructor. Qed.
Definition same_results (x y : result str) : Prop := match x, y with Ok a, Ok b => plainer a b | Err e, Err f => e = f | _, _ => False end.

Definition lists_ok (a b : list str) : Prop := Forall2 plainer a b /\ List.last a [] = List.last b [].
Lemma last_two (l : list str) (x y : str) : List.last (l ++ [x; y]) [] = y.
Proof. change [x; y] with ([x] ++ [y]). rewrite app_assoc. apply last_last. Qed.
Lemma last_three (l : list str) (x y z : str) : List.last (l ++ [x; y; z]) [] = z.
Proof. change [x; y; z] with ([x; y] ++ [z]). rewrite app_assoc. apply last_last. Qed.
Lemma removelast_ok (R : str -> str -> Prop) a b : Forall2 R a b -> Forall2 R (removelast a) (removelast b).
Proof. induction 1 as [|x y a b H F IH]; [constructor|]. cbn. inversion F; subst; [constructor|]. constructor; auto. Qed.
Lemma concat_ok a b : Forall2 plainer a b -> plainer (concat a) (concat b).
Proof. induction 1; cbn; [constructor|now apply plainer_app]. Qed.
Lemma nonempty_ok (a b : list str) : lists_ok a b -> nonempty a = nonempty b.
Proof. intros [F _]. destruct F; reflexivity. Qed.

Definition loops_ok (x y : result (Z * list str * str)) : Prop :=
  match x, y with Ok (i, a, s), Ok (j, b, t) => i = j /\ lists_ok a b /\ plainer s t | Err e, Err f => e = f | _, _ => False end.
Lemma loop_ok w w' : (forall i, same_results (w i) (w' i)) -> forall qs i a b s t, lists_ok a b -> plainer s t ->
  loops_ok (quantity_loop w true qs i a s) (quantity_loop w' false qs i b t).
Proof.
  intros W. induction qs as [|(q, e) qs IH]; intros i a b s t L S; [cbn; auto|]. cbn [quantity_loop]. destruct (q <=? i); [|apply IH; auto].
  specialize (W (i / q)). destruct (w (i / q)) as [x|x], (w' (i / q)) as [y|y]; cbn in W; try contradiction; [|exact W].
  apply IH; [|apply (plainer_comma [] []); constructor]. split; [|now rewrite !last_three]. apply Forall2_app; [apply L|]. repeat constructor; auto. apply plainer_refl.
Qed.
Definition lists_result (x y : result (list str)) : Prop := match x, y with Ok a, Ok b => Forall2 plainer a b | Err e, Err f => e = f | _, _ => False end.
Lemma finish_ok ordinal i a b s t : lists_ok a b -> plainer s t -> lists_result (finish true ordinal i a s) (finish false ordinal i b t).
Proof.
  intros L S. unfold finish. rewrite <- (nonempty_ok a b L).
  set (sp := if nonempty a then (if true then u " and " else u " ") else s). set (sp' := if nonempty a then (if false then u " and " else u " ") else t).
  assert (P : plainer sp sp') by (unfold sp, sp'; destruct (nonempty a); [apply (plainer_and [] []); constructor|exact S]). clearbody sp sp'.
  assert (M : loops_ok (if 20 <=? i then match py_index tens (i / 10) with Ok (Some t) => Ok (i mod 10, a ++ [sp; t], u "-") | Ok None => Err TypeError | Err e => Err e end else Ok (i, a, sp))
    (if 20 <=? i then match py_index tens (i / 10) with Ok (Some t) => Ok (i mod 10, b ++ [sp'; t], u "-") | Ok None => Err TypeError | Err e => Err e end else Ok (i, b, sp'))).
  { destruct (20 <=? i); [|cbn; auto]. destruct (py_index tens (i / 10)) as [[x|]|x]; cbn; auto. split; auto. split; [|apply plainer_refl].
    split; [|now rewrite !last_two]. apply Forall2_app; [apply L|]. repeat constructor; auto. apply plainer_refl. }
  destruct (if 20 <=? i then match py_index tens (i / 10) with Ok (Some t) => Ok (i mod 10, a ++ [sp; t], u "-") | Ok None => Err TypeError | Err e => Err e end else Ok (i, a, sp)) as [((i1, a1), s1)|e1];
  destruct (if 20 <=? i then match py_index tens (i / 10) with Ok (Some t) => Ok (i mod 10, b ++ [sp'; t], u "-") | Ok None => Err TypeError | Err e => Err e end else Ok (i, b, sp')) as [((i2, b1), s2)|e2];
    cbn in M; try contradiction; [|exact M]. destruct M as (<- & L1 & S1). rewrite <- (nonempty_ok a1 b1 L1). pose proof (proj1 L1) as F.
  destruct (negb (i1 =? 0) || negb (nonempty a1)).
  - destruct (py_index (if ordinal then first_twenty_ordinal else first_twenty_cardinal) i1); cbn; auto. apply Forall2_app; [exact F|]. repeat constructor; auto. apply plainer_refl.
  - destruct (ordinal && nonempty a1); [|exact F]. rewrite <- (proj2 L1). destruct (last_char (List.last a1 []) =? 121)%N; cbn.
    + apply Forall2_app; [apply removelast_ok, F|]. repeat constructor; apply plainer_refl.
    + apply Forall2_app; [exact F|]. repeat constructor; apply plainer_refl.
Qed.
Lemma words_ok fuel : forall i ordinal, same_results (int_to_words_fuel fuel i true ordinal) (int_to_words_fuel fuel i false ordinal).
Proof.
  induction fuel as [|fuel IH]; intros i ordinal; [reflexivity|]. cbn [int_to_words_fuel]. destruct ((10 ^ 75 <=? i) || (i <=? - 10 ^ 75)); [apply plainer_refl|].
  set (neg := i <? 0). set (j := if neg then - i else i). clearbody neg j.
  assert (M : loops_ok (if 100 <=? j then quantity_loop (fun upper => int_to_words_fuel fuel upper true false) true (if 10 ^ 12 <=? j then quantities else small_quantities) j [] [] else Ok (j, [], []))
    (if 100 <=? j then quantity_loop (fun upper => int_to_words_fuel fuel upper false false) false (if 10 ^ 12 <=? j then quantities else small_quantities) j [] [] else Ok (j, [], []))).
  { assert (L0 : lists_ok [] []) by (split; [constructor|reflexivity]). destruct (100 <=? j); [|cbn; repeat split; constructor]. apply loop_ok; [intros k; apply IH|exact L0|constructor]. }
  destruct (if 100 <=? j then quantity_loop (fun upper => int_to_words_fuel fuel upper true false) true (if 10 ^ 12 <=? j then quantities else small_quantities) j [] [] else Ok (j, [], [])) as [((i1, a1), s1)|e1];
  destruct (if 100 <=? j then quantity_loop (fun upper => int_to_words_fuel fuel upper false false) false (if 10 ^ 12 <=? j then quantities else small_quantities) j [] [] else Ok (j, [], [])) as [((i2, b1), s2)|e2];
    cbn in M; try contradiction; [|exact M]. destruct M as (<- & L1 & S1).
  pose proof (finish_ok ordinal i1 a1 b1 s1 s2 L1 S1) as F. destruct (finish true ordinal i1 a1 s1), (finish false ordinal i1 b1 s2); cbn in F; try contradiction; [|exact F]. cbn.
  destruct neg; [cbn; repeat apply plainer_keep|]; now apply concat_ok.
Qed.

(** flowery=False only leaves out commas and "and". *)
Theorem C147_flowery : forall i ordinal, exists f p, int_to_words i true ordinal = Ok f /\ int_to_words i false ordinal = Ok p /\ plainer f p.
Proof.
  intros i ordinal. pose proof (words_ok 4 i ordinal) as M. fold (int_to_words i true ordinal) in M. fold (int_to_words i false ordinal) in M.
  assert (T : exists f, int_to_words i true ordinal = Ok f).
  { destruct (Z_lt_le_dec (- 10 ^ 75) i); [destruct (Z_lt_le_dec i (10 ^ 75))|].
    - destruct ordinal; [destruct (C46_ordinal i true ltac:(lia)) as (w & E & _)|destruct (C46_read_back i true ltac:(lia)) as (w & E & _)]; eauto.
    - rewrite C46_large by lia. eauto.
    - rewrite C46_large by lia. eauto. }
  destruct T as (f & E). rewrite E in *. destruct (int_to_words i false ordinal) as [p|]; [|destruct M]. exists f, p. auto.
Qed.
Print Assumptions C147_flowery.

Definition is_and (w : str) : bool := str_eqb w (u "and").
Lemma plainer_words a b : plainer a b -> forall x, filter (fun w => negb (is_and w)) (words_of (x ++ a)) = filter (fun w => negb (is_and w)) (words_of (x ++ b)).
Proof.
  induction 1 as [|c a b H IH|a b H IH|a b H IH]; intros x; [reflexivity| | |].
  - change (c :: a) with ([c] ++ a). change (c :: b) with ([c] ++ b). rewrite !app_assoc. apply IH.
  - pose proof (comma_words true x a) as E. pose proof (comma_words false x b) as E2. cbn [comma] in E, E2. rewrite E, E2, !filter_app. f_equal. exact (IH []).
  - pose proof (anded_words true x a) as E. pose proof (anded_words false x b) as E2. cbn [anded] in E, E2. rewrite E, E2, !filter_app. f_equal. exact (IH []).
Qed.
(** The words but "and" are the same, *)
Theorem C147_flowery_words : forall i ordinal f p, int_to_words i true ordinal = Ok f -> int_to_words i false ordinal = Ok p ->
  filter (fun w => negb (is_and w)) (words_of f) = filter (fun w => negb (is_and w)) (words_of p).
Proof. intros i ordinal f p F P. destruct (C147_flowery i ordinal) as (f' & p' & F' & P' & H). rewrite F in F'. rewrite P in P'. injection F' as <-. injection P' as <-. exact (plainer_words f p H []). Qed.
Print Assumptions C147_flowery_words.

(** A negative number is "negative " and the number. *)
Theorem C147_negative : forall i flowery ordinal, 0 < i < 10 ^ 75 ->
  exists w, int_to_words i flowery ordinal = Ok w /\ int_to_words (- i) flowery ordinal = Ok (u "negative " ++ w).
Proof.
  intros i flowery ordinal H.
  assert (T : exists w, int_to_words i flowery ordinal = Ok w) by (destruct ordinal; [destruct (C46_ordinal i flowery ltac:(lia)) as (w & E & _)|destruct (C46_read_back i flowery ltac:(lia)) as (w & E & _)]; eauto).
  destruct T as (w & E). exists w. split; [exact E|]. revert E. unfold int_to_words. cbn [int_to_words_fuel]. generalize (int_to_words_fuel 3). intros rec.
  assert ((10 ^ 75 <=? i) || (i <=? - 10 ^ 75) = false) as -> by lia. assert ((10 ^ 75 <=? - i) || (- i <=? - 10 ^ 75) = false) as -> by lia.
  assert (i <? 0 = false) as -> by lia. assert (- i <? 0 = true) as -> by lia. rewrite Z.opp_involutive.
  match goal with |- context [match ?x with Ok _ => _ | Err _ => _ end] => destruct x as [((j, l), s)|e]; [|discriminate] end.
  destruct (finish flowery ordinal j l s) as [l'|e]; [|discriminate]. intros [= <-]. reflexivity.
Qed.
Print Assumptions C147_negative.

(** and the plain text has no comma and no "and". *)
Fixpoint tidy (start : bool) (s : str) : bool := match s with [] => true | c :: t => negb (c =? 44)%N && negb (start && (c =? 97)%N) && tidy (divider c) t end.
Lemma tidy_weak s b : tidy true s = true -> tidy b s = true.
Proof. destruct s as [|c s]; auto. cbn. destruct b; auto. rewrite andb_true_r. intros H. apply andb_true_iff in H. destruct H as [H ->]. apply andb_true_iff in H. destruct H as [-> _]. reflexivity. Qed.
Lemma tidy_app x y b : tidy b x = true -> tidy true y = true -> tidy b (x ++ y) = true.
Proof. revert b. induction x as [|c x IH]; intros b H Y; [now apply tidy_weak|]. cbn in *. apply andb_true_iff in H. destruct H as [-> H]. cbn. now apply IH. Qed.
Lemma tidy_removelast x : forall b, tidy b x = true -> tidy b (removelast x) = true.
Proof. induction x as [|c x IH]; intros b H; auto. destruct x as [|d x]; [reflexivity|]. change (removelast (c :: d :: x)) with (c :: removelast (d :: x)). cbn [tidy] in H |- *. apply andb_true_iff in H. destruct H as [-> H]. apply IH. exact H. Qed.
Lemma tidy_concat l : Forall (fun s => tidy true s = true) l -> tidy true (concat l) = true.
Proof. induction 1; [reflexivity|]. cbn. now apply tidy_app. Qed.
Notation all_tidy := (Forall (fun s => tidy true s = true)).
Lemma py_index_in {A} (l : list A) i x : py_index l i = Ok x -> In x l.
Proof. unfold py_index. destruct (i <? 0); match goal with |- context [if ?b then _ else _] => destruct b end; try discriminate; destruct (nth_error l _) eqn:E; try discriminate; intros [= <-]; now apply nth_error_In in E. Qed.
Lemma loop_tidy_bounded w : (forall i x, - 10 ^ 75 < i < 10 ^ 75 -> w i = Ok x -> tidy true x = true) -> forall qs, Forall (fun q => 1 <= fst q /\ tidy true (snd q) = true) qs ->
  forall i a s i' a' s', 0 <= i < 10 ^ 75 -> all_tidy a -> tidy true s = true ->
  quantity_loop w false qs i a s = Ok (i', a', s') -> all_tidy a' /\ tidy true s' = true.
Proof.
  intros W. induction 1 as [|(q, e) qs (Q1 & Q) F IH]; intros i a s i' a' s' Hi A S E; cbn [fst snd] in *; [injection E as <- <- <-; auto|]. cbn [quantity_loop] in E. destruct (q <=? i); [|eapply IH; eauto].
  destruct (w (i / q)) as [x|] eqn:X; [|discriminate]. eapply IH; [| | |exact E]; [pose proof (Z.mod_pos_bound i q); pose proof (Z.mod_le i q); lia| |reflexivity].
  apply Forall_app. split; [exact A|]. repeat constructor; [exact S| |exact Q]. eapply W; [|exact X]. assert (0 <= i / q) by (apply Z.div_pos; lia). assert (i / q <= i) by (apply Z.div_le_upper_bound; nia). lia.
Qed.
Lemma finish_tidy ordinal i a s l : all_tidy a -> tidy true s = true -> finish false ordinal i a s = Ok l -> all_tidy l.
Proof.
  intros A S. unfold finish. set (sp := if nonempty a then (if false then u " and " else u " ") else s). assert (P : tidy true sp = true) by (unfold sp; destruct (nonempty a); [reflexivity|exact S]). clearbody sp.
  destruct (if 20 <=? i then match py_index tens (i / 10) with Ok (Some t) => Ok (i mod 10, a ++ [sp; t], u "-") | Ok None => Err TypeError | Err e => Err e end else Ok (i, a, sp)) as [((j, b), r)|e] eqn:E; [|discriminate].
  assert (B : all_tidy b /\ tidy true r = true).
  { destruct (20 <=? i); [|injection E as <- <- <-; auto]. destruct (py_index tens (i / 10)) as [[t|]|] eqn:T; try discriminate. injection E as <- <- <-. split; [|reflexivity].
    apply Forall_app. split; [exact A|]. repeat constructor; [exact P|]. apply py_index_in in T.
    assert (X : forallb (fun o => match o with Some t => tidy true t | None => true end) tens = true) by (vm_compute; reflexivity). rewrite forallb_forall in X. exact (X _ T). }
  clear E A S P. destruct B as [B R]. destruct (negb (j =? 0) || negb (nonempty b)).
  - destruct (py_index (if ordinal then first_twenty_ordinal else first_twenty_cardinal) j) as [w|] eqn:T; [|discriminate]. intros [= <-]. apply Forall_app. split; [exact B|]. repeat constructor; [exact R|]. apply py_index_in in T.
    assert (X : forallb (tidy true) first_twenty_ordinal && forallb (tidy true) first_twenty_cardinal = true) by (vm_compute; reflexivity). apply andb_true_iff in X. destruct X as [X1 X2]. rewrite forallb_forall in X1, X2. destruct ordinal; auto.
  - destruct (ordinal && nonempty b); [|intros [= <-]; exact B]. destruct (last_char (List.last b []) =? 121)%N; intros [= <-]; apply Forall_app; split.
    + clear -B. induction B as [|x b X B IH]; [constructor|]. cbn. destruct b; [constructor|]. constructor; auto.
    + repeat constructor. assert (L : tidy true (List.last b []) = true) by (clear -B; induction B as [|x b X B IH]; [reflexivity|]; cbn; destruct b; auto). apply tidy_app; [now apply tidy_removelast|reflexivity].
    + exact B.
    + repeat constructor.
Qed.
Lemma words_tidy fuel : forall i ordinal x, - 10 ^ 75 < i < 10 ^ 75 -> int_to_words_fuel fuel i false ordinal = Ok x -> tidy true x = true.
Proof.
  induction fuel as [|fuel IH]; intros i ordinal x Hi; [discriminate|]. cbn [int_to_words_fuel]. assert ((10 ^ 75 <=? i) || (i <=? - 10 ^ 75) = false) as -> by lia.
  set (neg := i <? 0). set (j := if neg then - i else i). assert (Hj : 0 <= j < 10 ^ 75) by (unfold j, neg; destruct (i <? 0) eqn:E; lia). clearbody neg j.
  destruct (if 100 <=? j then quantity_loop (fun upper => int_to_words_fuel fuel upper false false) false (if 10 ^ 12 <=? j then quantities else small_quantities) j [] [] else Ok (j, [], [])) as [((k, b), r)|e] eqn:E; [|discriminate].
  assert (B : all_tidy b /\ tidy true r = true).
  { destruct (100 <=? j); [|injection E as <- <- <-; split; [constructor|reflexivity]].
    eapply (loop_tidy_bounded (fun upper => int_to_words_fuel fuel upper false false)); [intros m y Hm Ey; exact (IH m false y Hm Ey)| | | | |exact E]; [|exact Hj|constructor|reflexivity].
    assert (X : forallb (fun q => (1 <=? fst q) && tidy true (snd q)) quantities && forallb (fun q => (1 <=? fst q) && tidy true (snd q)) small_quantities = true) by (vm_compute; reflexivity). apply andb_true_iff in X. destruct X as [X1 X2]. rewrite forallb_forall in X1, X2.
    apply Forall_forall. intros q J. assert (G : (1 <=? fst q) && tidy true (snd q) = true) by (destruct (10 ^ 12 <=? j); auto). apply andb_true_iff in G. destruct G as [G1 G2]. apply Z.leb_le in G1. auto. }
  destruct B as [B R]. destruct (finish false ordinal k b r) as [l|e] eqn:F; [|discriminate]. intros [= <-]. pose proof (finish_tidy ordinal k b r l B R F) as L. destruct neg; [apply (tidy_concat (u "negative " :: l)); constructor; [reflexivity|exact L]|now apply tidy_concat].
Qed.
Lemma tidy_words s : forall b, tidy b s = true -> exists h t, split1 divider s = h :: t /\ (b = true -> hd 0%N h <> 97%N) /\ Forall (fun w => hd 0%N w <> 97%N) t.
Proof.
  induction s as [|c s IH]; intros b H; [exists [], []; cbn; repeat split; [discriminate|constructor]|]. cbn [tidy] in H. apply andb_true_iff in H. destruct H as [H1 H2]. apply andb_true_iff in H1. destruct H1 as [H0 H1].
  destruct (IH _ H2) as (h & t & E & A & F). cbn [split1]. rewrite E. destruct (divider c) eqn:D.
  - exists [], (h :: t). split; auto. split; [discriminate|]. constructor; auto.
  - exists (c :: h), t. split; auto. split; auto. intros ->. cbn. intros ->. discriminate.
Qed.
Theorem C147_plain : forall i ordinal p, - 10 ^ 75 < i < 10 ^ 75 -> int_to_words i false ordinal = Ok p -> ~ In 44%N p /\ ~ In (u "and") (words_of p).
Proof.
  intros i ordinal p H E. pose proof (words_tidy 4 i ordinal p H E) as T. split.
  - clear -T. assert (G : exists b, tidy b p = true) by eauto. clear T. destruct G as (b & T). revert b T. induction p as [|c p IH]; intros b T; [intros []|]. cbn in T. apply andb_true_iff in T. destruct T as [T1 T2]. apply andb_true_iff in T1. destruct T1 as [T0 _]. intros [-> |J]; [discriminate|exact (IH _ T2 J)].
  - destruct (tidy_words p true T) as (h & t & S & A & F). unfold words_of. rewrite S. intros J. apply filter_In in J. destruct J as [[-> |J] _]; [exact (A eq_refl eq_refl)|]. rewrite Forall_forall in F. exact (F _ J eq_refl).
Qed.
Print Assumptions C147_plain.
Example C147_witness : int_to_words 1234125 true false = Ok (u "one million, two hundred and thirty-four thousand, one hundred and twenty-five") /\
  int_to_words 1234125 false false = Ok (u "one million two hundred thirty-four thousand one hundred twenty-five") /\ int_to_words (-1100) true true = Ok (u "negative one thousand, one hundredth").
Proof. repeat split; vm_compute; reflexivity. Qed.
