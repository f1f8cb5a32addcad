(** C140: what repr(LineInfo) shows. *)
From Verif Require Import PyBase PyBaseProof PyStr PyStrProof LinesModel LinesProof3 TypedModel DargModel LargModel LargProps ReprModel.

(** the values that are left out: None, 0, an empty text or collection, an object that calls itself false *)
Inductive nothing : pyval -> Prop :=
| nothing_none : nothing (PObj ONone)
| nothing_zero : nothing (PInt 0)
| nothing_text k c : nothing (PObj (OText k c []))
| nothing_seq : nothing (PObj (OSeq []))
| nothing_false : nothing (PObj (OOther false)).
(** the attributes that come first *)
Definition first_names : list str := [u "lines"; u "line"; u "line_number"; u "column_number"; u "leading"; u "trailing"; u "end"].

Lemma shown_spec v : shown_true v = true <-> ~ nothing v.
Proof.
  split.
  - intros H N. destruct N; discriminate.
  - intros H. destruct v as [[k c [|a s]| |[|a l]|l|[]]|z| | |]; cbn; auto; try (exfalso; apply H; constructor).
    destruct (Z.eqb_spec z 0) as [->|]; auto. exfalso. apply H. constructor.
Qed.
Lemma names_spec d n : In n (names_of d) <-> get d n <> None.
Proof.
  induction d as [|[m v] d IH]; cbn [names_of get In]; [split; [intros []|congruence]|]. rewrite filter_In, IH.
  destruct (str_eqb m n) eqn:E.
  - apply str_eqb_eq in E. subst. split; [discriminate|auto].
  - split; [intros [->|[H _]]; auto; now rewrite str_eqb_refl in E|intros H; right; auto].
Qed.
Lemma names_nodup d : NoDup (names_of d).
Proof.
  induction d as [|[m v] d IH]; cbn [names_of]; constructor.
  - rewrite filter_In. intros [_ H]. now rewrite str_eqb_refl in H.
  - now apply NoDup_filter.
Qed.
Lemma remove_spec n l : NoDup l -> match remove_name n l with Ok r => In n l /\ NoDup r /\ (forall m, In m r <-> In m l /\ m <> n) | Err e => e = ValueError /\ ~ In n l end.
Proof.
  induction l as [|a l IH]; intros ND; cbn [remove_name]; [split; auto|]. apply NoDup_cons_iff in ND. destruct ND as [NI ND].
  destruct (str_eqb a n) eqn:E.
  - apply str_eqb_eq in E. subst a. split; [left; auto|]. split; auto. intros m. cbn. split; [intros I; split; auto; intros ->; auto|intros [[->|I] Q]; [congruence|auto]].
  - assert (a <> n) by (intros ->; now rewrite str_eqb_refl in E). specialize (IH ND). destruct (remove_name n l) as [r|e]; cbn [rmap].
    + destruct IH as (I & ND' & S). split; [right; auto|]. split.
      * constructor; auto. rewrite S. tauto.
      * intros m. cbn. rewrite S. split; [intros [->|[X Y]]; auto|intros [[->|X] Y]; auto].
    + destruct IH as [-> I]. split; auto. intros [->|J]; auto.
Qed.
Lemma removes_spec ns : NoDup ns -> forall l, NoDup l -> match remove_names ns l with Ok r => (forall n, In n ns -> In n l) /\ NoDup r /\ (forall m, In m r <-> In m l /\ ~ In m ns) | Err e => e = ValueError /\ exists n, In n ns /\ ~ In n l end.
Proof.
  induction ns as [|n ns IH]; intros NN l ND; cbn [remove_names]; [split; [intros ? []|split; auto; intros m; cbn; tauto]|].
  apply NoDup_cons_iff in NN. destruct NN as [NI NN]. pose proof (remove_spec n l ND) as R. destruct (remove_name n l) as [r|e]; cbn [rbind].
  - destruct R as (I & ND' & S). specialize (IH NN r ND'). destruct (remove_names ns r) as [q|e].
    + destruct IH as (A & B & C). split; [intros m [<-|J]; auto; apply S, A, J|]. split; auto. intros m. rewrite C, S. cbn. split; [intros [[X Y] Z]; split; auto; intros [->|W]; auto|intros [X Y]; repeat split; auto].
    + destruct IH as (-> & m & J & K). split; auto. exists m. split; [right; auto|]. intros L. apply K, S. split; auto. intros ->. auto.
  - destruct R as [-> R]. split; auto. exists n. split; [left|]; auto.
Qed.
Lemma first_nodup : NoDup first_names.
Proof. repeat constructor; cbn; intuition discriminate. Qed.
Definition entry_of (d : attrs) (n : str) : list (str * pyval) := match get d n with Some v => if shown_true v then [(n, v)] else [] | None => [] end.
Definition kept (d : attrs) (n : str) : bool := match get d n with Some v => shown_true v | None => false end.
Lemma entries_names d l : map fst (flat_map (entry_of d) l) = filter (kept d) l.
Proof. induction l as [|n l IH]; cbn [flat_map filter map]; auto. rewrite map_app, IH. unfold entry_of, kept. destruct (get d n) as [v|]; auto. destruct (shown_true v); reflexivity. Qed.
Lemma ascending_filter {A} (lt : A -> A -> bool) f l : ascending lt l -> ascending lt (filter f l).
Proof.
  unfold ascending. induction 1 as [|a l S IH F]; cbn [filter]; [constructor|]. destruct (f a); auto. constructor; auto.
  rewrite Forall_forall in *. intros x I. apply filter_In in I. apply F, I.
Qed.
Lemma str_weak : strict_weak str_ltb.
Proof. split; [apply str_ltb_irrefl|]. split; [intros a b; apply str_ltb_asym|]. intros a b c. apply str_ltb_le_trans. Qed.

(** For an object with any attributes: each attribute that is not nothing is shown, once, and
    no other: those of first_names in that order, then the others in the order of their names.
    ValueError is raised exactly if one of first_names was deleted. *)
Theorem C140_repr : forall d,
  match info_repr d with
  | Ok shown =>
      (forall name value, In (name, value) shown <-> get d name = Some value /\ ~ nothing value) /\ NoDup (map fst shown) /\
      (exists keep others, map fst shown = filter keep first_names ++ others /\ ascending str_ltb others /\ forall name, In name others -> ~ In name first_names) /\
      forall name, In name first_names -> get d name <> None
  | Err e => e = ValueError /\ exists name, In name first_names /\ get d name = None
  end.
Proof.
  intros d. unfold info_repr. change priority_names with first_names.
  pose proof (removes_spec first_names first_nodup (names_of d) (names_nodup d)) as R. destruct (remove_names first_names (names_of d)) as [r|e]; cbn [rmap].
  - destruct R as (A & B & C). fold (entry_of d).
    assert (Co : forall n, In n (first_names ++ sort str_ltb r) <-> get d n <> None).
    { intros n. rewrite in_app_iff. assert (X : In n (sort str_ltb r) <-> In n r) by (split; apply Permutation_in; [|symmetry]; apply sort_perm). rewrite X, C, names_spec.
      split; [intros [I|[I _]]; auto; apply names_spec, A, I|]. intros G. destruct (in_dec (list_eq_dec N.eq_dec) n first_names) as [I|I]; auto. }
    change (fun n : str => match get d n with Some v => if shown_true v then [(n, v)] else [] | None => [] end) with (entry_of d).
    split; [|split; [|split]].
    + intros n v. rewrite in_flat_map. split.
      * intros (m & _ & I). unfold entry_of in I. destruct (get d m) as [w|] eqn:G; [|destruct I]. destruct (shown_true w) eqn:S; [|destruct I]. destruct I as [I|[]]. injection I as -> ->. split; auto. now apply shown_spec.
      * intros [G NN]. exists n. split; [apply Co; congruence|]. unfold entry_of. rewrite G. rewrite (proj2 (shown_spec v) NN). left; auto.
    + rewrite entries_names. apply NoDup_filter.
      assert (Al : forall (l1 l2 : list str), NoDup l1 -> NoDup l2 -> (forall x, In x l1 -> ~ In x l2) -> NoDup (l1 ++ l2)).
      { induction l1 as [|a l1 IH]; intros l2 N1 N2 D; auto. apply NoDup_cons_iff in N1. destruct N1 as [N1 N1']. cbn. constructor.
        - rewrite in_app_iff. intros [I|I]; auto. apply (D a); cbn; auto. - apply IH; auto. intros x I. apply D. now right. }
      apply Al; [apply first_nodup|apply (Permutation_NoDup (Permutation_sym (sort_perm str_ltb r))); exact B|].
      intros x I J. apply (Permutation_in _ (sort_perm str_ltb r)) in J. now apply C in J.
    + exists (kept d), (filter (kept d) (sort str_ltb r)). split; [now rewrite entries_names, filter_app|]. split; [apply ascending_filter, sort_sorted, str_weak|].
      intros n I. apply filter_In in I. destruct I as [I _]. apply (Permutation_in _ (sort_perm str_ltb r)) in I. now apply C in I.
    + intros n I. apply names_spec, A, I.
  - destruct R as (-> & n & I & J). split; auto. exists n. split; auto. destruct (get d n) as [v|] eqn:G; auto. elim J. apply names_spec. congruence.
Qed.
Print Assumptions C140_repr.

(** An object as LineInfo() makes it, with attributes set afterwards, always has a repr, and it
    shows the line numbers as they are. *)
Theorem C140_new_object : forall subclass lines line line_number column_number leading trailing end_ indent match_ kwargs d later,
  (forall name, In name parameters -> get kwargs name = None) ->
  LineInfo_py subclass lines line line_number column_number leading trailing end_ indent match_ kwargs = Ok d ->
  exists shown, info_repr (later ++ d) = Ok shown /\
    (get later (u "line") = None -> forall v, In (u "line", v) shown <-> v = line /\ ~ nothing line) /\
    (get later (u "line_number") = None -> forall v, In (u "line_number", v) shown <-> v = line_number /\ ~ nothing line_number).
Proof.
  intros subclass lines line ln cn le tr en ind m kw d later K H.
  destruct (C111_attributes subclass lines line ln cn le tr en ind m kw d K H) as (k & c & v & l' & t' & e' & _ & _ & _ & _ & _ & _ & M & _).
  pose proof (C140_repr (later ++ d)) as R. destruct (info_repr (later ++ d)) as [shown|e].
  - exists shown. split; auto. destruct R as (R & _).
    assert (G2 : get d (u "line") = Some line) by exact (f_equal (fun l => nth 1 l None) M).
    assert (G3 : get d (u "line_number") = Some ln) by exact (f_equal (fun l => nth 2 l None) M).
    split; intros G w; rewrite R, get_app, G; [rewrite G2|rewrite G3]; split; intros [X Y]; [injection X as <-|subst|injection X as <-|subst]; auto.
  - exfalso. destruct R as (_ & n & I & G). rewrite get_app in G. destruct (get later n); [discriminate|].
    assert (X : In (get d n) (map (get d) parameters)) by (apply in_map; unfold first_names in I; unfold parameters; cbn [In] in *; tauto).
    rewrite M in X. apply in_map_iff in X. destruct X as (w & X & _). congruence.
Qed.
Print Assumptions C140_new_object.

Example C140_witness : exists d, LineInfo_py Nat.eqb (PLines 0) (PObj (OText KStr None (u "ab"))) (PInt 7) (PInt 1) (PObj ONone) (PObj ONone) (PObj ONone) (PInt 0) (PObj ONone)
    [(u "zeta", PInt 5); (u "alpha", PInt 6)] = Ok d /\
  info_repr d = Ok [(u "lines", PLines 0); (u "line", PObj (OText KStr None (u "ab"))); (u "line_number", PInt 7); (u "column_number", PInt 1); (u "alpha", PInt 6); (u "zeta", PInt 5)] /\
  info_repr (filter (fun p => negb (str_eqb (fst p) (u "leading"))) d) = Err ValueError.
Proof. eexists. split; [reflexivity|]. split; vm_compute; reflexivity. Qed.
