(** Proofs about merge_columns: trailing whitespace, no overflow, every line is shown. *)
From Coq Require Import Sorted.
From Verif Require Import LinesProof MergeModel MergeSpec MergeProof MergeProof2.

Section Strip.
  Context (is_bytes : bool).
  Notation rstrip := (rstrip is_bytes).
  Lemma lstrip_white ws s : forallb (white is_bytes) ws = true -> lstrip is_bytes (ws ++ s) = lstrip is_bytes s.
  Proof. induction ws as [|c ws IH]; intros H; [reflexivity|]. cbn [forallb] in H. apply andb_prop in H. destruct H as [A B]. cbn [app lstrip]. rewrite A. apply IH, B. Qed.
  Lemma rstrip_app_white s ws : forallb (white is_bytes) ws = true -> rstrip (s ++ ws) = rstrip s.
  Proof.
    intros H. unfold LinesModel.rstrip. rewrite rev_app_distr, lstrip_white; [reflexivity|]. rewrite forallb_forall in H |- *. intros x I. apply H. apply in_rev. exact I.
  Qed.
  Lemma rstrip_last p x : rstrip (p ++ x) = rstrip (p ++ rstrip x).
  Proof. destruct (rstrip_spec is_bytes x) as (ws & E & W & _). rewrite E at 1. rewrite app_assoc. apply rstrip_app_white, W. Qed.
  Lemma rstrip_length x : length (rstrip x) <= length x.
  Proof. destruct (rstrip_spec is_bytes x) as (ws & E & _). rewrite E at 2. rewrite app_length. lia. Qed.
End Strip.
Section Show.
  Context (is_bytes : bool) (before after : nat) (strategy : OverflowStrategy).
  Notation line := (line is_bytes).
  Notation rline := (fun c k => rstrip is_bytes (line c k)).
  Notation height := (height is_bytes).
  Notation intrudes := (intrudes is_bytes before after strategy).
  Notation cell := (cell is_bytes before after strategy).
  Notation free_after := (free_after is_bytes before after strategy).
  Notation layout := (layout is_bytes before after strategy).
  Notation done := (done is_bytes before after strategy).
  Lemma ljust_tidy c k : tidy is_bytes c -> ljust (snd c) (line c k) = ljust (snd c) (rstrip is_bytes (line c k)).
  Proof.
    intros T. unfold MergeSpec.line. destruct (le_lt_dec (length (text_lines is_bytes (fst c))) k) as [L | L]; [rewrite nth_overflow by exact L; reflexivity|].
    destruct (T (nth k (text_lines is_bytes (fst c)) [])) as (n & E & H); [apply nth_In; exact L|].
    set (l := nth k (text_lines is_bytes (fst c)) []) in *. clearbody l. unfold ljust. remember (rstrip is_bytes l) as r eqn:ER. clear ER. subst l.
    destruct H as [-> | H]; [cbn [repeat]; rewrite app_nil_r; reflexivity|]. rewrite app_length, repeat_length in *. rewrite <- app_assoc, <- repeat_app. do 2 f_equal. lia.
  Qed.
  Lemma layout_nil shown shown' cols : forall free r, layout shown free cols r = [] -> layout shown' free cols r = [].
  Proof. intros free r. destruct cols as [|c cols]; [auto|]. cbn [MergeSpec.layout]. destruct (free r); [discriminate|auto]. Qed.
  Lemma layout_same sep cols : Forall (tidy is_bytes) cols -> forall free r p,
    rstrip is_bytes (p ++ join sep (layout line free cols r)) = rstrip is_bytes (p ++ join sep (layout rline free cols r)).
  Proof.
    intros T. induction T as [|c cols TC T IH]; intros free r p; [reflexivity|]. cbn [MergeSpec.layout]. destruct (free r) eqn:F; [|reflexivity].
    assert (FA : free_after free c r = negb (intrudes c (count free r))) by (unfold MergeSpec.free_after; rewrite F; reflexivity).
    unfold MergeSpec.cell. destruct (intrudes c (count free r)) eqn:EI.
    - assert (N : forall shown, layout shown (free_after free c) cols r = []) by (intros shown; destruct cols; [reflexivity|]; cbn [MergeSpec.layout]; rewrite FA; reflexivity).
      rewrite !N. cbn [join]. apply rstrip_last.
    - rewrite <- (ljust_tidy c _ TC). specialize (IH (free_after free c) r). pose proof (layout_nil line rline cols (free_after free c) r) as N1. pose proof (layout_nil rline line cols (free_after free c) r) as N2.
      destruct (layout line (free_after free c) cols r) as [|x l]; destruct (layout rline (free_after free c) cols r) as [|y l'];
        [reflexivity | discriminate (N1 eq_refl) | discriminate (N2 eq_refl) |].
      set (cl := ljust (snd c) (line c (count free r))). change (join sep (cl :: x :: l)) with (cl ++ sep ++ join sep (x :: l)). change (join sep (cl :: y :: l')) with (cl ++ sep ++ join sep (y :: l')).
      rewrite !app_assoc. apply IH.
  Qed.
  Lemma text_same sep cols n : Forall (tidy is_bytes) cols -> text_of is_bytes sep (layout line all_free cols) n = text_of is_bytes sep (layout rline all_free cols) n.
  Proof. intros T. unfold text_of. do 2 f_equal. apply map_ext. intros r. apply (layout_same sep cols T all_free r []). Qed.

  (** every line is shown, in order *)
  Lemma count_filter free n : map (count free) (filter free (seq 0 n)) = seq 0 (count free n).
  Proof.
    induction n as [|n IH]; [reflexivity|]. rewrite count_S, seq_S, filter_app, map_app, IH. cbn [Nat.add filter]. destruct (free n); [|rewrite Nat.add_0_r; cbn; apply app_nil_r].
    rewrite Nat.add_1_r, seq_S. reflexivity.
  Qed.
  Fixpoint free_for (free : nat -> bool) (cols : list (str * nat)) (i : nat) : nat -> bool :=
    match cols, i with c :: cols, S i => free_for (free_after free c) cols i | _, _ => free end.
  Lemma free_for_free cols : forall free i r, free_for free cols i r = true -> free r = true.
  Proof.
    induction cols as [|c cols IH]; intros free i r H; destruct i as [|i]; try exact H. cbn [free_for] in H. apply IH in H. unfold MergeSpec.free_after in H. apply andb_prop in H. apply H.
  Qed.
  Lemma shown_at shown cols : forall free i c r, nth_error cols i = Some c -> free_for free cols i r = true ->
    nth_error (layout shown free cols r) i = Some (cell shown c (count (free_for free cols i) r)).
  Proof.
    induction cols as [|c0 cols IH]; intros free i c r E F; [destruct i; discriminate|]. pose proof (free_for_free _ _ _ _ F) as F0. cbn [MergeSpec.layout]. rewrite F0. destruct i as [|i].
    - injection E as <-. reflexivity.
    - cbn [nth_error]. apply IH; [exact E|exact F].
  Qed.
  Lemma done_height cols : forall free i c n, nth_error cols i = Some c -> done free cols n -> height c <= count (free_for free cols i) n.
  Proof.
    induction cols as [|c0 cols IH]; intros free i c n E D; [destruct i; discriminate|]. destruct D as [D1 D2]. destruct i as [|i]; [injection E as <-; exact D1|]. apply IH; assumption.
  Qed.
  Lemma sorted_filter (f : nat -> bool) l : StronglySorted lt l -> StronglySorted lt (filter f l).
  Proof.
    induction 1 as [|x l S IH F]; [constructor|]. cbn [filter]. destruct (f x); [|exact IH]. constructor; [exact IH|]. rewrite Forall_forall in F |- *. intros y I. apply filter_In in I. apply F, I.
  Qed.
  Lemma sorted_seq s n : StronglySorted lt (seq s n).
  Proof. revert s. induction n as [|n IH]; intros s; [constructor|]. constructor; [apply IH|]. apply Forall_forall. intros y I. apply in_seq in I. lia. Qed.
  Lemma sorted_firstn k l : StronglySorted lt l -> StronglySorted lt (firstn k l).
  Proof.
    intros S. revert k. induction S as [|x l S IH F]; intros k; destruct k; try constructor; [apply IH|]. rewrite Forall_forall in F |- *. intros y I. apply F.
    rewrite <- (firstn_skipn k l). apply in_or_app. left. exact I.
  Qed.
  Lemma all_shown shown cols n i c : nth_error cols i = Some c -> done all_free cols n ->
    exists rs, StronglySorted lt rs /\ Forall (fun r => r < n) rs /\
      map (fun r => nth_error (layout shown all_free cols r) i) rs = map (fun k => Some (cell shown c k)) (seq 0 (height c)).
  Proof.
    intros E D. set (f := free_for all_free cols i). exists (firstn (height c) (filter f (seq 0 n))). split; [|split].
    - apply sorted_firstn, sorted_filter, sorted_seq.
    - apply Forall_forall. intros r I. assert (I' : In r (filter f (seq 0 n))) by (rewrite <- (firstn_skipn (height c)); apply in_or_app; left; exact I).
      apply filter_In in I'. destruct I' as [I' _]. apply in_seq in I'. lia.
    - pose proof (done_height _ _ _ _ _ E D) as H. fold f in H.
      assert (M : map (fun r => nth_error (layout shown all_free cols r) i) (filter f (seq 0 n)) = map (fun k => Some (cell shown c k)) (seq 0 (count f n))).
      { rewrite <- count_filter, map_map. apply map_ext_in. intros r I. apply filter_In in I. apply shown_at; [exact E|apply I]. }
      rewrite <- firstn_map, M, firstn_map. f_equal. replace (count f n) with (height c + (count f n - height c)) by lia. rewrite seq_app, firstn_app, seq_length, Nat.sub_diag, firstn_O, app_nil_r.
      rewrite firstn_all2; [reflexivity | rewrite seq_length; lia].
  Qed.
  (** without intruding lines *)
  Lemma count_all r : count all_free r = r.
  Proof. induction r as [|r IH]; [reflexivity|]. rewrite count_S, IH. cbn. lia. Qed.
  Lemma count_ext f g r : (forall r, f r = g r) -> count f r = count g r.
  Proof. intros H. unfold count. f_equal. apply filter_ext. exact H. Qed.
  Lemma no_intrusion shown cols : Forall (fun c => forall k, intrudes c k = false) cols -> forall free, (forall r, free r = true) ->
    (forall r, layout shown free cols r = map (fun c => ljust (snd c) (shown c r)) cols) /\ (forall r, done free cols r <-> Forall (fun c => height c <= r) cols).
  Proof.
    induction 1 as [|c cols H F IH]; intros free A; [split; [reflexivity|intros r; split; [constructor|exact (fun _ => I)]]|].
    assert (A' : forall r, free_after free c r = true) by (intros r; unfold MergeSpec.free_after; rewrite A, H; reflexivity). destruct (IH _ A') as [IH1 IH2].
    assert (C : forall r, count free r = r) by (intros r; rewrite (count_ext free all_free), count_all; auto). split; intros r.
    - cbn [MergeSpec.layout map]. rewrite A, C, IH1. unfold MergeSpec.cell. rewrite H. reflexivity.
    - cbn [MergeSpec.done]. rewrite C, IH2. split; [intros [P Q]; constructor; assumption | intros P; inversion P; auto].
  Qed.
End Show.
