(** fgrep and grep: lemmas for C69-C71. *)
From Verif Require Import PyStrProof GrepModel GrepSpec.
From Coq Require Import Lia.

Lemma is_prefix_iff p : forall s, is_prefix p s = true <-> exists r, s = p ++ r.
Proof.
  induction p as [|a p IH]; intros [|b s]; cbn; try (split; [eauto|auto]; fail).
  - split; [discriminate|]. intros [r E]. discriminate.
  - rewrite andb_true_iff, N.eqb_eq, IH. split; [intros [-> [r ->]]; eauto|]. intros [r [= -> ->]]. eauto.
Qed.
Lemma is_in_iff w s : is_in w s = true <-> part_of w s.
Proof.
  unfold is_in, part_of. induction s as [|c s IH].
  - cbn. destruct (is_prefix w []) eqn:P.
    + apply is_prefix_iff in P as [r E]. split; auto. intros _. now exists [], r.
    + split; [discriminate|]. intros (a & b & E). symmetry in E. apply app_eq_nil in E as [_ E]. apply app_eq_nil in E as [-> _]. discriminate.
  - cbn [find]. destruct (is_prefix w (c :: s)) eqn:P.
    + apply is_prefix_iff in P as [r E]. split; auto. intros _. now exists [], r.
    + destruct (find w s) eqn:F; cbn [option_map].
      * split; auto. intros _. destruct (proj1 IH eq_refl) as (a & b & ->). now exists (c :: a), b.
      * split; [discriminate|]. intros ([|x a] & b & E).
        -- assert (is_prefix w (c :: s) = true) by (apply is_prefix_iff; exists b; exact E). congruence.
        -- injection E as -> E. apply IH. eauto.
Qed.
Lemma is_in_nil w : w <> [] -> is_in w [] = false.
Proof. intros N. destruct (is_in w []) eqn:E; auto. apply is_in_iff in E as (a & b & E). symmetry in E. apply app_eq_nil in E as [_ E]. apply app_eq_nil in E as [E _]. congruence. Qed.

(** ** lines *)
Lemma universal_text l rest : ~ In 13%N l -> universal (l ++ rest) = l ++ universal rest.
Proof.
  induction l as [|c l IH]; auto. intros H. cbn [app]. assert (C : c <> 13%N) by (intros ->; apply H; now left).
  assert (R : universal (l ++ rest) = l ++ universal rest) by (apply IH; intros I; apply H; now right).
  rewrite <- R. cbn [universal]. destruct c as [|[[[[c|c|]|[c|c|]|]|[[c|c|]|[c|c|]|]|]|[[[c|c|]|[c|c|]|]|[[c|c|]|[c|c|]|]|]|]]; auto. congruence.
Qed.
Lemma universal_cr rest : (forall r, rest <> 10%N :: r) -> universal (13%N :: rest) = 10%N :: universal rest.
Proof.
  intros H. cbn [universal]. f_equal. destruct rest as [|c r]; auto. destruct (N.eq_dec c 10) as [->|N]; [now specialize (H r)|].
  destruct c as [|[[[[c|c|]|[c|c|]|]|[[c|c|]|[c|c|]|]|]|[[[c|c|]|[c|c|]|]|[[c|c|]|[c|c|]|]|]|]]; auto. congruence.
Qed.
Lemma read_line b l br rest : line_text b l -> line_break b br rest -> read b (l ++ br ++ rest) = l ++ 10%N :: read b rest.
Proof.
  intros [_ T] B. unfold read. destruct b.
  - inversion B; subst; [reflexivity|discriminate|discriminate].
  - rewrite universal_text by auto. f_equal. inversion B; subst; [reflexivity|reflexivity|]. cbn [app]. now apply universal_cr.
Qed.
Lemma read_last b l : line_text b l -> read b l = l.
Proof. intros [_ T]. unfold read. destruct b; auto. rewrite <- (app_nil_r l) at 1. rewrite universal_text by auto. apply app_nil_r. Qed.
Definition no10 (l : str) : Prop := forallb (fun d => negb (d =? 10)%N) l = true.
Lemma no10_iff l : no10 l <-> ~ In 10%N l.
Proof.
  unfold no10. rewrite forallb_forall. split.
  - intros H I. apply H in I. discriminate.
  - intros H c I. apply negb_true_iff, N.eqb_neq. intros ->. auto.
Qed.
Lemma split_lines_last l : no10 l -> split_lines l = [l].
Proof. intros N. unfold split_lines. change l with (join [10%N] [l]) at 1. apply split1_join; auto; discriminate. Qed.
Lemma split_lines_step l rest : no10 l -> split_lines (l ++ 10%N :: rest) = l :: split_lines rest.
Proof.
  unfold split_lines. induction l as [|d l IH]; intros N; cbn; auto.
  cbn in N. apply andb_true_iff in N as [N1 N2]. apply negb_true_iff in N1. rewrite N1, (IH N2). reflexivity.
Qed.
Lemma closed_app b x y : y <> [] -> closed b (x ++ y) = closed b y.
Proof. intros N. unfold closed. rewrite rev_app_distr. destruct (rev y) eqn:E; auto. apply (f_equal (@rev chr)) in E. rewrite rev_involutive in E. cbn in E. congruence. Qed.
Lemma closed_last b l : l <> [] -> line_text b l -> closed b l = false.
Proof.
  intros N [T1 T2]. unfold closed. destruct (rev l) as [|c r] eqn:E.
  - apply (f_equal (@rev chr)) in E. rewrite rev_involutive in E. cbn in E. congruence.
  - assert (I : In c l) by (apply in_rev; rewrite E; now left). apply orb_false_iff. split; [apply N.eqb_neq; intros ->; auto|].
    destruct b; auto. cbn. apply N.eqb_neq. intros ->. now apply T2.
Qed.
Lemma split_read b raw ls : lines_of b raw ls -> split_lines (read b raw) = ls ++ (if closed b raw then [[]] else []).
Proof.
  induction 1 as [|l N T|l br rest ls T B R IH].
  - unfold read. destruct b; reflexivity.
  - rewrite read_last, closed_last by auto. apply split_lines_last, no10_iff, T.
  - rewrite (read_line b l br rest T B). rewrite split_lines_step by apply no10_iff, T. rewrite IH. cbn [app]. f_equal. f_equal.
    destruct rest as [|c rest].
    + rewrite app_nil_r. inversion B; subst; rewrite closed_app by discriminate; reflexivity.
    + rewrite app_assoc, closed_app by discriminate. reflexivity.
Qed.
Lemma lines_unique b raw ls ls' : lines_of b raw ls -> lines_of b raw ls' -> ls = ls'.
Proof. intros H H'. apply split_read in H, H'. rewrite H in H'. now apply app_inv_tail in H'. Qed.
Lemma lines_total b raw : exists ls, lines_of b raw ls.
Proof.
  assert (K : forall n raw, length raw < n -> exists ls, lines_of b raw ls); [|apply (K (S (length raw))); auto].
  induction n as [|n IH]; [lia|]. intros r L.
  assert (D : (exists l br rest, r = l ++ br ++ rest /\ line_text b l /\ line_break b br rest) \/ line_text b r).
  { clear IH L. induction r as [|c r IH].
    - right. split; [intros []|intros _ []].
    - destruct (N.eq_dec c 10) as [->|N1]; [left; exists [], [10%N], r; split; auto; split; [split; [intros []|intros _ []]|constructor]|].
      destruct (N.eq_dec c 13) as [->|N2].
      { destruct b eqn:Eb.
        - destruct IH as [(l & br & rest & E & T & B)|T].
          + left. exists (13%N :: l), br, rest. split; [cbn; now rewrite E|]. split; auto. destruct T as [T1 T2]. split; [intros [X|X]; [discriminate|auto]|discriminate].
          + right. destruct T as [T1 T2]. split; [intros [X|X]; [discriminate|auto]|discriminate].
        - left. destruct r as [|d r]; [exists [], [13%N], []; split; auto; split; [split; [intros []|intros _ []]|constructor; [auto|discriminate]]|].
          destruct (N.eq_dec d 10) as [->|N3].
          + exists [], [13%N; 10%N], r. split; auto. split; [split; [intros []|intros _ []]|now constructor].
          + exists [], [13%N], (d :: r). split; auto. split; [split; [intros []|intros _ []]|constructor; [auto|]]. intros r' E. congruence. }
      destruct IH as [(l & br & rest & E & T & B)|T].
      + left. exists (c :: l), br, rest. split; [cbn; now rewrite E|]. split; auto. destruct T as [T1 T2]. split; [intros [X|X]; [congruence|auto]|]. intros Eb [X|X]; [congruence|now apply T2].
      + right. destruct T as [T1 T2]. split; [intros [X|X]; [congruence|auto]|]. intros Eb [X|X]; [congruence|now apply T2]. }
  destruct D as [(l & br & rest & -> & T & B)|T].
  - destruct (IH rest) as [ls H].
    { rewrite !app_length in L. assert (0 < length br) by (inversion B; cbn; lia). lia. }
    exists (l :: ls). now constructor.
  - destruct r as [|c r]; [exists []; constructor|]. exists [c :: r]. constructor; auto. discriminate.
Qed.

(** ** selecting *)
Lemma filter_numbered (f : str -> bool) ls : filter (fun t : nat * str => f (snd t)) (enumerate1 (ls ++ [[]])) =
  filter (fun t => f (snd t)) (enumerate1 ls) ++ (if f [] then [(S (length ls), [])] else []).
Proof.
  unfold enumerate1. rewrite app_length. cbn [length]. rewrite seq_app.
  assert (C : forall (a : list nat) (b : list str) x y, length a = length b -> combine (a ++ [x]) (b ++ [y]) = combine a b ++ [(x, y)]).
  { induction a as [|p a IH]; intros [|q b] x y L; try discriminate; auto. cbn. f_equal. apply IH. now injection L. }
  cbn [seq]. rewrite C by now rewrite seq_length. rewrite filter_app. cbn [filter snd]. rewrite Nat.add_comm, Nat.add_1_r. reflexivity.
Qed.
Lemma numbered_lines (f : str -> bool) : forall ls k, map snd (filter (fun t : nat * str => f (snd t)) (combine (seq k (length ls)) ls)) = filter f ls.
Proof. induction ls as [|l ls IH]; intros k; auto. cbn. destruct (f l); cbn; now rewrite IH. Qed.
Lemma select_numbered (f : str -> bool) b raw ls : lines_of b raw ls -> f [] = false ->
  filter (fun t : nat * str => f (snd t)) (enumerate1 (split_lines (read b raw))) = filter (fun t => f (snd t)) (number_from_1 ls).
Proof. intros L F. rewrite (split_read b raw ls L). destruct (closed b raw); [rewrite filter_numbered, F, app_nil_r|rewrite app_nil_r]; reflexivity. Qed.
Lemma select_lines (f : str -> bool) b raw ls : lines_of b raw ls -> f [] = false -> filter f (split_lines (read b raw)) = filter f ls.
Proof. intros L F. rewrite (split_read b raw ls L), filter_app. destruct (closed b raw); cbn [filter]; rewrite ?F, app_nil_r; reflexivity. Qed.

(** ** lower *)
Record lowercase_laws (E : case_tables) : Prop := {
  lower_newline : lower1 E 10%N = [10%N];
  only_newline : forall c, In 10%N (lower1 E c) -> c = 10%N;
  never_empty : forall c, lower1 E c <> [];
  newline_not_cased : cased E 10%N = false;
  newline_not_ignorable : ignorable E 10%N = false }.
Section Lower.
  Context (E : case_tables) (L : lowercase_laws E).
  Lemma next_cased_line s x : next_cased E (s ++ 10%N :: x) = next_cased E s.
  Proof. induction s as [|c s IH]; cbn; [now rewrite (newline_not_ignorable E L), (newline_not_cased E L)|]. now rewrite IH. Qed.
  Lemma lower_behind s : forall bs x, lower_from E (bs ++ 10%N :: x) s = lower_from E bs s.
  Proof. induction s as [|c s IH]; intros bs x; auto. cbn [lower_from]. rewrite next_cased_line, app_comm_cons, IH. reflexivity. Qed.
  Lemma lower_before l : forall bs rest, lower_from E bs (l ++ 10%N :: rest) = lower_from E bs l ++ 10%N :: lower_from E [] rest.
  Proof.
    induction l as [|c l IH]; intros bs rest.
    - cbn [app lower_from]. change (10 =? 931)%N with false. cbn iota. rewrite (lower_newline E L). cbn [app]. f_equal. apply (lower_behind rest [] bs).
    - cbn [app lower_from]. rewrite next_cased_line, IH, <- app_assoc. reflexivity.
  Qed.
  Lemma lower_no10 l : no10 l -> no10 (lower E l).
  Proof.
    rewrite !no10_iff. unfold lower. generalize (@nil chr). induction l as [|c l IH]; intros bs H; auto. cbn [lower_from]. intros I. apply in_app_or in I as [I|I].
    - destruct (c =? 931)%N; [destruct (next_cased E bs && _); destruct I as [I|[]]; discriminate|]. apply (only_newline E L) in I. apply H. now left.
    - revert I. apply IH. intros I. apply H. now right.
  Qed.
  Lemma lower_join ls : ls <> [] -> lower E (join [10%N] ls) = join [10%N] (map (lower E) ls).
  Proof.
    intros N. unfold lower. induction ls as [|l [|m ls] IH]; [congruence|reflexivity|].
    change (join [10%N] (l :: m :: ls)) with (l ++ 10%N :: join [10%N] (m :: ls)). rewrite lower_before, IH by discriminate. reflexivity.
  Qed.
  Lemma split_lower s : split_lines (lower E s) = map (lower E) (split_lines s).
  Proof.
    assert (J : join [10%N] (split_lines s) = s) by (apply join_split1; intros d D; now apply N.eqb_eq).
    assert (N : split_lines s <> []) by apply split1_nonnil.
    rewrite <- J at 1. rewrite lower_join by exact N. apply split1_join; auto.
    - destruct (split_lines s); [congruence|discriminate].
    - pose proof (split1_no (fun c => (c =? 10)%N) s) as F. fold (split_lines s) in F. rewrite Forall_forall in *. intros x I. apply in_map_iff in I as (y & <- & I). apply lower_no10, F, I.
  Qed.
  Lemma lower_nonempty s : s <> [] -> lower E s <> [].
  Proof.
    unfold lower. destruct s as [|c s]; [congruence|]. intros _ X. cbn [lower_from] in X. apply app_eq_nil in X as [X _]. destruct (c =? 931)%N; [discriminate|]. now apply (never_empty E L) in X.
  Qed.
  Lemma zip_lower (f : str -> bool) (ls : list str) : map fst (filter (fun t => f (snd t)) (combine ls (map (lower E) ls))) = filter (fun l => f (lower E l)) ls.
  Proof. induction ls as [|l ls IH]; auto. cbn. destruct (f (lower E l)); cbn; now rewrite IH. Qed.
  Lemma enum_lower (f : str -> bool) : forall (ls : list str) k, map (fun t : nat * (str * str) => (fst t, fst (snd t))) (filter (fun t => f (snd (snd t))) (combine (seq k (length ls)) (combine ls (map (lower E) ls)))) = filter (fun t => f (lower E (snd t))) (combine (seq k (length ls)) ls).
  Proof. induction ls as [|l ls IH]; intros k; auto. cbn [length seq map combine filter snd]. destruct (f (lower E l)); cbn [map fst snd]; [f_equal; apply IH|apply IH]. Qed.
End Lower.
Lemma ascii_laws : lowercase_laws ascii_tables.
Proof.
  split; try reflexivity; cbn [ascii_tables lower1]; [|discriminate]. intros c [I|[]]. destruct (65 <=? c)%N eqn:A; cbn [andb] in I; auto. destruct (c <=? 90)%N; auto. apply N.leb_le in A. lia.
Qed.
(** where lower() works character by character *)
Definition simple (E : case_tables) (c : chr) : Prop := c <> 931%N /\ length (lower1 E c) = 1.
Lemma lower_simple E l : Forall (simple E) l -> forall bs, lower_from E bs l = flat_map (lower1 E) l.
Proof. induction 1 as [|c l [H1 H2] F IH]; intros bs; auto. cbn [lower_from flat_map]. apply N.eqb_neq in H1. rewrite H1, IH. reflexivity. Qed.
Lemma lower_firstn E l : Forall (simple E) l -> forall n, firstn n (flat_map (lower1 E) l) = flat_map (lower1 E) (firstn n l) /\ skipn n (flat_map (lower1 E) l) = flat_map (lower1 E) (skipn n l).
Proof.
  induction 1 as [|c l [H1 H2] F IH]; intros [|n]; cbn [flat_map firstn skipn]; auto. destruct (IH n) as [A B].
  destruct (lower1 E c) as [|d [|]] eqn:Q; try discriminate. cbn [app firstn skipn]. now rewrite A, B.
Qed.
Lemma Forall_firstn {A} (P : A -> Prop) n l : Forall P l -> Forall P (firstn n l).
Proof. intros F. rewrite Forall_forall in *. intros x I. apply F. rewrite <- (firstn_skipn n l). apply in_or_app. now left. Qed.
Lemma Forall_skipn {A} (P : A -> Prop) n l : Forall P l -> Forall P (skipn n l).
Proof. intros F. rewrite Forall_forall in *. intros x I. apply F. rewrite <- (firstn_skipn n l). apply in_or_app. now right. Qed.
Lemma part_simple E line v : Forall (simple E) line -> (part_of v (lower E line) <-> exists w, part_of w line /\ lower E w = v).
Proof.
  intros F. unfold lower. rewrite (lower_simple E line F). split.
  - intros (a & b & E0). exists (firstn (length v) (skipn (length a) line)). split.
    + exists (firstn (length a) line), (skipn (length v) (skipn (length a) line)). now rewrite !firstn_skipn.
    + rewrite lower_simple by now apply Forall_firstn, Forall_skipn.
      destruct (lower_firstn E _ (Forall_skipn _ (length a) line F) (length v)) as [A _]. rewrite <- A.
      destruct (lower_firstn E line F (length a)) as [_ B]. rewrite <- B, E0. rewrite skipn_app, skipn_all, Nat.sub_diag. cbn [app skipn]. rewrite firstn_app, firstn_all, Nat.sub_diag. apply app_nil_r.
  - intros (w & (a & b & ->) & <-). apply Forall_app in F as [F1 F]. apply Forall_app in F as [F2 F3]. rewrite lower_simple by auto. rewrite !flat_map_app. exists (flat_map (lower1 E) a), (flat_map (lower1 E) b). reflexivity.
Qed.

(** ** search *)
Lemma search_iff p s : forall count pos, match search_from p s false pos count with Some _ => true | None => false end = true <-> exists i e, pos <= i < pos + count /\ p_match p s i (length s) = Some e.
Proof.
  induction count as [|count IH]; intros pos; cbn [search_from].
  - split; [discriminate|]. intros (i & e & H & _). lia.
  - destruct (p_match p s pos (length s)) as [e|] eqn:M.
    + split; auto. intros _. exists pos, e. split; auto. lia.
    + rewrite IH. split; intros (i & e & H & H'); exists i, e; (split; [|auto]); [lia|]. destruct (Nat.eq_dec i pos) as [->|]; [congruence|lia].
Qed.
