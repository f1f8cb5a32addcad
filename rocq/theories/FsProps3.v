(** C72-C74 among other processes that do anything but disturb what is at the path and above it. *)
From Verif Require Import FsModel FsSpec FsSpec3 FsProof FsProps FsProps2.

Section Mkdir.
  Context (p : path).
  Notation R := (leave_directories p).
  Definition fine (w : world) : Prop := well_formed w /\ forall q, above q p -> ~ is_file w q.
  Lemma fine_allowed w w1 : fine w -> R w w1 -> fine w1.
  Proof. intros (W & N) (W1 & H). split; auto. intros q A F. apply (N q A). now apply (H q A). Qed.
  Lemma dir_allowed w w1 q : above q p -> R w w1 -> is_dir w q -> is_dir w1 q.
  Proof. intros A (_ & H) D. now apply (H q A). Qed.
  Lemma fine_mkdir w q : fine w -> above q p -> traverse w q = None -> files w q = None -> fine (set_file w q (Some (Dir (clock w)))).
  Proof.
    intros (W & N) A T F. split.
    - apply wf_set; auto; [intros ->; destruct W as [[t X] _]; congruence|]. left. intros n. destruct (files w (n :: q)) eqn:E; auto. destruct W as [_ W]. destruct (W n q) as [t X]; congruence.
    - intros q' A' (d & t & E). destruct (list_eq_dec N.eq_dec q q') as [<-|NE]; [rewrite set_same in E; discriminate|]. rewrite set_other in E by auto. apply (N q' A'). now exists d, t.
  Qed.
  Lemma mkdir_among q ret exc : above q p -> forall tr o w, fine w -> (q = [] \/ is_dir w (tl q)) -> others_only R w tr -> among_others (mkdir_exist_ok q ret exc) tr o ->
    exists w' tr', fine w' /\ is_dir w' q /\ others_only R w' tr' /\ among_others ret tr' o /\ last_world w' tr' = last_world w tr.
  Proof.
    intros A tr o w FN D O H. unfold mkdir_exist_ok in H. inversion H as [| |c k w1 a w2 tr1 o1 DO H1]; subst. cbn [others_only last_world] in *. destruct O as (R1 & O).
    pose proof (fine_allowed _ _ FN R1) as FN1. pose proof FN1 as (W1 & N1).
    assert (T : traverse w1 q = None).
    { destruct q as [|n q]; [reflexivity|]. destruct D as [D|D]; [discriminate|]. apply traverse_parent; auto. cbn [tl] in D. apply (dir_allowed w w1 q); auto. destruct A as (x & ->). exists (x ++ [n]). now rewrite <- app_assoc. }
    cbn [do] in DO. rewrite T in DO. destruct (files w1 q) as [x|] eqn:F.
    - assert (Dq : is_dir w1 q). { destruct x as [d t|t]; [destruct (N1 q A); now exists d, t|now exists t]. }
      injection DO as <- <-. inversion H1 as [| |c k w3 a w4 tr2 o2 DO2 H2]; subst. cbn [others_only last_world] in *. destruct O as (R2 & O).
      pose proof (dir_allowed _ _ q A R2 Dq) as Dq3. pose proof (fine_allowed _ _ FN1 R2) as FN3. cbn [do] in DO2. pose proof Dq3 as (t & E3). rewrite (stat_some w3 q _ (proj1 FN3) E3) in DO2. injection DO2 as <- <-.
      cbn [yes] in H2. exists w3, tr2. repeat (split; auto).
    - injection DO as <- <-. exists (set_file w1 q (Some (Dir (clock w1)))), tr1. split; [now apply fine_mkdir|]. split; [exists (clock w1); apply set_same|]. auto.
  Qed.
  Lemma makedirs_among q : above q p -> forall ret exc tr o w, fine w -> others_only R w tr -> among_others (makedirs q ret exc) tr o ->
    exists w' tr', fine w' /\ is_dir w' q /\ others_only R w' tr' /\ among_others ret tr' o /\ last_world w' tr' = last_world w tr.
  Proof.
    induction q as [|n q IH]; intros A ret exc tr o w FN O H; [apply (mkdir_among [] ret exc); auto|].
    assert (Aq : above q p) by (destruct A as (x & ->); exists (x ++ [n]); now rewrite <- app_assoc).
    cbn [makedirs] in H. inversion H as [| |c k w1 a w2 tr1 o1 DO H1]; subst. cbn [others_only last_world] in *. destruct O as (R1 & O).
    pose proof (fine_allowed _ _ FN R1) as FN1. cbn [do] in DO. injection DO as <- <-. destruct (stat w1 q) as [x|e] eqn:S; cbn [yes] in H1.
    - apply (mkdir_among (n :: q) ret exc A tr1 o w1 FN1); auto. right. cbn [tl]. apply stat_files in S. destruct x as [d t|t]; [destruct (proj2 FN1 q Aq); now exists d, t|now exists t].
    - destruct (IH Aq _ _ _ _ _ FN1 O H1) as (w' & tr' & FN' & D' & O' & H' & L'). rewrite <- L'. apply (mkdir_among (n :: q) ret exc A tr' o w' FN'); auto.
  Qed.

  (** a file in the way *)
  Definition blocked (q : path) (w : world) : Prop := well_formed w /\ exists f, strictly_above f q /\ is_file w f.
  Lemma strictly_above_trans f q : strictly_above f q -> above q p -> above f p.
  Proof. intros (n & x & ->) (y & ->). exists (y ++ n :: x). now rewrite <- app_assoc. Qed.
  Lemma blocked_allowed q w w1 : above q p -> blocked q w -> R w w1 -> blocked q w1.
  Proof. intros A (W & f & S & F) (W1 & H). split; auto. exists f. split; auto. apply (H f); auto. now apply (strictly_above_trans f q). Qed.
  Lemma blocked_traverse q w : blocked q w -> traverse w q = Some NotADirectoryError.
  Proof.
    intros (W & f & S & F). destruct (traverse w q) as [e|] eqn:T.
    - destruct (traverse_error w q e W T) as [(-> & _)|(_ & N)]; [reflexivity|destruct (N f S F)].
    - destruct (proj1 (traverse_dirs w q) T f S) as (t & E). destruct F as (d & t' & E'). congruence.
  Qed.
  Definition unchanged (tr : list (world * world)) : Prop := forall w1 w2, In (w1, w2) tr -> w2 = w1.
  Lemma mkdir_blocked q ret exc : above q p -> forall tr o w, blocked q w -> others_only R w tr -> among_others (mkdir_exist_ok q ret exc) tr o ->
    exists w' tr' tr1, others_only R w' tr' /\ among_others (exc NotADirectoryError) tr' o /\ blocked q w' /\ tr = tr1 ++ tr' /\ unchanged tr1.
  Proof.
    intros A tr o w B O H. unfold mkdir_exist_ok in H. inversion H as [| |c k w1 a w2 tr1 o1 DO H1]; subst. cbn [others_only] in *. destruct O as (R1 & O).
    pose proof (blocked_allowed q _ _ A B R1) as B1. cbn [do] in DO. rewrite (blocked_traverse _ _ B1) in DO. injection DO as <- <-.
    inversion H1 as [| |c k w3 a w4 tr2 o2 DO2 H2]; subst. cbn [others_only] in *. destruct O as (R2 & O). pose proof (blocked_allowed q _ _ A B1 R2) as B3.
    cbn [do] in DO2. unfold stat in DO2. rewrite (blocked_traverse _ _ B3) in DO2. injection DO2 as <- <-. cbn [yes] in H2.
    exists w3, tr2, [(w1, w1); (w3, w3)]. repeat (split; auto). intros a b [E|[E|[]]]; injection E as <- <-; reflexivity.
  Qed.
  Lemma makedirs_among_blocked q : above q p -> forall ret exc tr o w, blocked q w -> others_only R w tr -> among_others (makedirs q ret exc) tr o ->
    exists w' tr' tr1, others_only R w' tr' /\ among_others (exc NotADirectoryError) tr' o /\ blocked q w' /\ tr = tr1 ++ tr' /\ unchanged tr1.
  Proof.
    induction q as [|n q IH]; intros A ret exc tr o w B O H; [destruct B as (_ & f & (m & x & E) & _); discriminate|].
    assert (Aq : above q p) by (destruct A as (x & ->); exists (x ++ [n]); now rewrite <- app_assoc).
    cbn [makedirs] in H. inversion H as [| |c k w1 a w2 tr1 o1 DO H1]; subst. cbn [others_only] in *. destruct O as (R1 & O).
    pose proof (blocked_allowed _ _ _ A B R1) as B1. cbn [do] in DO. injection DO as <- <-. pose proof B1 as (W1 & f & S & F). apply strictly_cases in S.
    destruct (stat w1 q) as [x|e] eqn:SQ; cbn [yes] in H1.
    - destruct (mkdir_blocked (n :: q) ret exc A tr1 o w1 B1 O H1) as (w' & tr' & t1 & O' & H' & B' & -> & U). exists w', tr', ((w1, w1) :: t1). repeat (split; auto). intros a b [E|I]; [injection E as <- <-; reflexivity|now apply U].
    - assert (Bq : blocked q w1).
      { split; auto. exists f. split; auto. destruct q as [|m q].
        - apply above_root in S. subst f. destruct F as (d & t & E). destruct W1 as [[t' E'] _]. congruence.
        - apply above_cases in S as [->|S]; [destruct F as (d & t & E); rewrite (stat_some w1 _ _ W1 E) in SQ; discriminate|]. now apply strictly_cases. }
      destruct (IH Aq _ _ _ _ _ Bq O H1) as (w' & tr' & t1 & O' & H' & B' & -> & U). exists w', tr', ((w1, w1) :: t1). cbn in H'. split; auto. split; auto.
      split; [|split; [reflexivity|intros a b [E|I]; [injection E as <- <-; reflexivity|now apply U]]].
      destruct B' as (W' & f' & S' & F'). split; auto. exists f'. split; auto. destruct S' as (m & x & ->). exists n, (m :: x). reflexivity.
  Qed.
End Mkdir.

(** ** C72: safe_mkdir among processes that neither remove anything at path or above it nor make a file there *)
(** It fails exactly if path is below a file, and then none of its calls changes anything; otherwise there is a directory at path when it returns. *)
Theorem C72_among_others : forall p w tr o, well_formed w -> others_only (leave_directories p) w tr -> among_others (safe_mkdir p) tr o ->
  ((exists q, strictly_above q p /\ is_file w q) -> o = Some NotADirectoryError /\ forall w1 w2, In (w1, w2) tr -> w2 = w1) /\
  ((forall q, strictly_above q p -> ~ is_file w q) -> o = None /\ is_dir (last_world w tr) p).
Proof.
  intros p w tr o W O H. unfold safe_mkdir in H. inversion H as [| |c k w1 a w2 tr1 o1 DO H1]; subst. cbn [others_only last_world] in *. destruct O as (R1 & O). cbn [do] in DO. injection DO as <- <-.
  split.
  - intros B. assert (B1 : blocked p w1) by (apply (blocked_allowed p p w w1 (above_refl p)); [split; auto|exact R1]).
    unfold stat in H1. rewrite (blocked_traverse p w1 B1) in H1. cbn [yes] in H1.
    destruct (makedirs_among_blocked p p (above_refl p) _ _ _ _ _ B1 O H1) as (w' & tr' & t1 & O' & H' & B' & -> & U). inversion H'; subst. split; [reflexivity|].
    intros x y [E|I]; [injection E as <- <-; reflexivity|]. rewrite app_nil_r in I. now apply U.
  - intros N. assert (N1 : forall q, strictly_above q p -> ~ is_file w1 q).
    { intros q S F. apply (N q S). destruct R1 as (_ & R1). apply (R1 q); auto. destruct S as (n & x & ->). now exists (n :: x). }
    pose proof (proj1 R1) as W1.
    assert (G : forall w tr o, fine p w -> others_only (leave_directories p) w tr -> among_others (makedirs p Return Raise) tr o -> o = None /\ is_dir (last_world w tr) p).
    { clear. intros w tr o FN O H. destruct (makedirs_among p p (above_refl p) _ _ _ _ _ FN O H) as (w' & tr' & _ & D & _ & H' & L). inversion H'; subst. cbn [last_world] in L. rewrite <- L. auto. }
    destruct (stat w1 p) as [[d t|t]|e] eqn:S; cbn [yes] in H1.
    + inversion H1 as [| |c k w3 a w4 tr2 o2 DO2 H2]; subst. cbn [others_only last_world] in *. destruct O as (R2 & O). cbn [do] in DO2.
      assert (F1 : is_file w1 p) by (apply stat_files in S; now exists d, t).
      assert (F3 : is_file w3 p) by (apply (proj2 R2 p (above_refl p)); exact F1). pose proof (proj1 R2) as W3.
      pose proof F3 as (d' & t' & E3). rewrite (stat_some w3 p _ W3 E3) in DO2. injection DO2 as <- <-. apply G; auto. split; [now apply wf_remove|].
      intros q A F. destruct (list_eq_dec N.eq_dec p q) as [<-|NE]; [destruct F as (? & ? & F); rewrite set_same in F; discriminate|].
      destruct F as (d2 & t2 & F). rewrite set_other in F by auto. apply (N1 q).
      * destruct A as ([|n x] & ->); [cbn in NE; congruence|]. now exists n, x.
      * apply (proj2 R2 q); auto. now exists d2, t2.
    + apply G; auto. split; auto. intros q A F. destruct (list_eq_dec N.eq_dec p q) as [<-|NE]; [apply stat_files in S; destruct F as (? & ? & F); congruence|].
      apply (N1 q); auto. destruct A as ([|n x] & ->); [cbn in NE; congruence|]. now exists n, x.
    + apply G; auto. split; auto. intros q A F. destruct (list_eq_dec N.eq_dec p q) as [<-|NE]; [destruct F as (? & ? & F); rewrite (stat_some w1 p _ W1 F) in S; discriminate|].
      apply (N1 q); auto. destruct A as ([|n x] & ->); [cbn in NE; congruence|]. now exists n, x.
Qed.

(** ** C73: safe_unlink among processes that do not remove the file at path: it succeeds, and when it returns no file is there. *)
Theorem C73_among_others : forall p w tr o, well_formed w -> others_only (leave_file p) w tr -> among_others (safe_unlink p) tr o ->
  o = None /\ ~ is_file (last_world w tr) p.
Proof.
  intros p w tr o W O H. unfold safe_unlink in H. inversion H as [| |c k w1 a w2 tr1 o1 DO H1]; subst. cbn [others_only last_world] in *. destruct O as (R1 & O). cbn [do] in DO. injection DO as <- <-.
  pose proof (proj1 R1) as W1. destruct (stat w1 p) as [[d t|t]|e] eqn:S; cbn [yes] in H1.
  - inversion H1 as [| |c k w3 a w4 tr2 o2 DO2 H2]; subst. cbn [others_only last_world] in *. destruct O as (R2 & O). cbn [do] in DO2.
    assert (F3 : is_file w3 p) by (apply R2; apply stat_files in S; now exists d, t). destruct F3 as (d' & t' & E3). rewrite (stat_some w3 p _ (proj1 R2) E3) in DO2. injection DO2 as <- <-.
    inversion H2; subst. split; auto. cbn [last_world]. intros (? & ? & F). rewrite set_same in F. discriminate.
  - inversion H1; subst. split; auto. cbn [last_world]. apply stat_files in S. intros (? & ? & F). congruence.
  - inversion H1; subst. split; auto. cbn [last_world]. intros (? & ? & F). rewrite (stat_some w1 p _ W1 F) in S. discriminate.
Qed.
(** Among any others it fails only if there was a file at path, and at its next call there was none: the exception says what was there instead. *)
Theorem C73_fails_only_if_removed : forall p tr e, among_others (safe_unlink p) tr (Some e) -> exists w1 w2 d t, tr = [(w1, w1); (w2, w2)] /\
  stat w1 p = inl (File d t) /\ match stat w2 p with inl (File _ _) => False | inl (Dir _) => e = IsADirectoryError | inr e' => e = e' end.
Proof.
  intros p tr e H. unfold safe_unlink in H. inversion H as [| |c k w1 a w2 tr1 o1 DO H1]; subst. cbn [do] in DO. injection DO as <- <-.
  destruct (stat w1 p) as [[d t|t]|e'] eqn:S; cbn [yes] in H1; [|inversion H1|inversion H1].
  inversion H1 as [| |c k w3 a w4 tr2 o2 DO2 H2]; subst. cbn [do] in DO2. exists w1, w3, d, t.
  destruct (stat w3 p) as [[d' t'|t']|e'] eqn:S3; injection DO2 as <- <-; inversion H2; subst; auto.
Qed.

(** ** C74: touch among processes that neither make nor remove anything at path, nor remove its directory (but may, say, write to the file) *)
(** It succeeds exactly if there is something at path or a directory for it.  When it returns, the modification time is that of the clock at its last
    call, and what is there has the contents it had just before that call. *)
Theorem C74_among_others : forall p w tr o, well_formed w -> others_only (leave_alone p) w tr -> among_others (touch p) tr o ->
  (files w p = None -> (forall w1 w2, In (w1, w2) tr -> ~ is_dir w1 (tl p)) -> exists e, o = Some e) /\
  (files w p <> None \/ is_dir w (tl p) -> o = None /\ exists w1 w2 w3, tr = [(w1, w1); (w2, w3)] /\
     (forall x, files w2 p = Some x -> files w3 p = Some (with_mtime x (clock w2))) /\
     (files w2 p = None -> files w p = None /\ files w3 p = Some (File [] (clock w2))) /\
     (forall q, q <> p -> files w3 q = files w2 q)).
Proof.
  intros p w tr o W O H. unfold touch in H. inversion H as [| |c k w1 a w2 tr1 o1 DO H1]; subst. cbn [others_only] in O. destruct O as (R1 & O). cbn [do] in DO. injection DO as <- <-.
  inversion H1 as [| |c k w3 a w4 tr2 o2 DO2 H2]; subst. cbn [others_only] in O. destruct O as (R2 & O). destruct R1 as (W1 & D1 & F1 & P1). destruct R2 as (W3 & D3 & F3 & P3).
  assert (KN : files w p = None -> files w1 p = None /\ files w3 p = None).
  { intros E. assert (E1 : files w1 p = None). { destruct (files w1 p) as [[d t|t]|] eqn:X; auto; [destruct (proj2 F1) as (? & ? & Y); [now exists d, t|congruence]|destruct (proj2 D1) as (? & Y); [now exists t|congruence]]. }
    split; auto. destruct (files w3 p) as [[d t|t]|] eqn:X; auto; [destruct (proj2 F3) as (? & ? & Y); [now exists d, t|congruence]|destruct (proj2 D3) as (? & Y); [now exists t|congruence]]. }
  assert (KS : files w p <> None -> files w1 p <> None /\ files w3 p <> None).
  { intros E. assert (E1 : files w1 p <> None). { destruct (files w p) as [[d t|t]|] eqn:X; [destruct (proj1 F1) as (? & ? & Y); [now exists d, t|congruence]|destruct (proj1 D1) as (? & Y); [now exists t|congruence]|congruence]. }
    split; auto. destruct (files w1 p) as [[d t|t]|] eqn:X; [destruct (proj1 F3) as (? & ? & Y); [now exists d, t|congruence]|destruct (proj1 D3) as (? & Y); [now exists t|congruence]|congruence]. }
  split.
  - intros E NDL. destruct (KN E) as (E1 & E3). destruct (stat_none w1 p E1) as (e1 & S1). rewrite S1 in DO2. cbn [yes do] in DO2.
    assert (N3 : ~ is_dir w3 (tl p)) by (apply (NDL w3 w4); right; left; reflexivity).
    destruct (traverse w3 p) as [e|] eqn:T; [injection DO2 as <- <-; inversion H2; subst; eauto|].
    destruct p as [|n q]; [destruct W as [[t X] _]; congruence|]. destruct N3. cbn [tl]. apply (proj1 (traverse_dirs w3 (n :: q)) T). exists n, []. reflexivity.
  - intros C. destruct (files w p) as [x|] eqn:E.
    + destruct (KS ltac:(congruence)) as (E1 & E3). destruct (files w1 p) as [x1|] eqn:X1; [|congruence]. rewrite (stat_some w1 p _ W1 X1) in DO2. cbn [yes do] in DO2.
      destruct (files w3 p) as [x3|] eqn:X3; [|congruence]. rewrite (stat_some w3 p _ W3 X3) in DO2.
      destruct x3 as [d t|t]; injection DO2 as <- <-; inversion H2; subst; (split; [reflexivity|]); exists w1, w3; eexists; (split; [reflexivity|]); rewrite set_same; cbn [with_mtime];
        (split; [intros y Y; rewrite X3 in Y; injection Y as <-; reflexivity|]); (split; [congruence|]); intros q NQ; apply set_other; auto.
    + destruct C as [C|C]; [congruence|]. destruct (KN eq_refl) as (E1 & E3). destruct (stat_none w1 p E1) as (e1 & S1). rewrite S1 in DO2. cbn [yes do] in DO2.
      assert (T : traverse w3 p = None). { destruct p as [|n q]; [reflexivity|]. apply traverse_parent; auto. }
      rewrite T, E3 in DO2. injection DO2 as <- <-. inversion H2; subst. split; [reflexivity|]. exists w1, w3. eexists. split; [reflexivity|]. rewrite set_same. split; [congruence|]. split; [auto|]. intros q NQ. apply set_other. auto.
Qed.
(** Among any others it fails only if what was at path is gone at the next call, or if nothing was there and then a directory is, or if the directory for it is missing. *)
Theorem C74_fails_only_if : forall p tr e, among_others (touch p) tr (Some e) -> exists w1 w2, tr = [(w1, w1); (w2, w2)] /\
  ((exists x, stat w1 p = inl x /\ stat w2 p = inr e) \/
   (exists e1, stat w1 p = inr e1 /\ ((exists t, stat w2 p = inl (Dir t) /\ e = IsADirectoryError) \/ (stat w2 p = inr e /\ p <> [] /\ forall t, stat w2 (tl p) <> inl (Dir t))))).
Proof.
  intros p tr e H. unfold touch in H. inversion H as [| |c k w1 a w2 tr1 o1 DO H1]; subst. cbn [do] in DO. injection DO as <- <-.
  inversion H1 as [| |c k w3 a w4 tr2 o2 DO2 H2]; subst. destruct (stat w1 p) as [x|e1] eqn:S1; cbn [yes do] in DO2.
  - destruct (stat w3 p) as [[d t|t]|e'] eqn:S3; injection DO2 as <- <-; inversion H2; subst. exists w1, w3. split; [reflexivity|]. left. exists x. auto.
  - destruct (traverse w3 p) as [e'|] eqn:T.
    + injection DO2 as <- <-. inversion H2; subst. exists w1, w3. split; [reflexivity|]. right. exists e1. split; auto. right. split; [unfold stat; now rewrite T|].
      destruct p as [|n q]; [discriminate|]. split; [discriminate|]. intros t S. cbn [tl] in S. unfold stat in S. cbn [traverse] in T. destruct (traverse w3 q); [discriminate|]. destruct (files w3 q) as [[]|]; discriminate.
    + destruct (files w3 p) as [[d t|t]|] eqn:F; injection DO2 as <- <-; inversion H2; subst. exists w1, w3. split; [reflexivity|]. right. exists e1. split; auto. left. exists t. split; auto. unfold stat. now rewrite T, F.
Qed.
Print Assumptions C74_fails_only_if.
Print Assumptions C72_among_others.
Print Assumptions C73_among_others.
Print Assumptions C73_fails_only_if_removed.
Print Assumptions C74_among_others.
(** Another process makes the directory /1/3 just after safe_mkdir("/1/3") has looked *)
Definition meanwhile : world := set_file example_world [3; 1]%N (Some (Dir 0)).
Lemma meanwhile_wf : well_formed meanwhile.
Proof. apply wf_set; [apply example_wf|reflexivity|discriminate|]. left. intros n. cbn. destruct n as [|[n|[n|n|]|]]; reflexivity. Qed.
Example C72_among_others_witness : let tr := [(example_world, example_world); (meanwhile, meanwhile); (meanwhile, meanwhile); (meanwhile, meanwhile)] in
  others_only (leave_directories [3; 1]%N) example_world tr /\ among_others (safe_mkdir [3; 1]%N) tr None /\ last_world example_world tr = meanwhile /\ ~ is_dir example_world [3; 1]%N.
Proof.
  cbv zeta. split; [|split; [|split]].
  - assert (S : forall w, well_formed w -> leave_directories [3; 1]%N w w) by (intros w W; split; auto).
    cbn [others_only]. split; [apply S, example_wf|]. split; [|split; [apply S, meanwhile_wf|split; [apply S, meanwhile_wf|exact I]]].
    split; [apply meanwhile_wf|]. intros q A. apply above_cases in A as [->|A].
    + split; [intros _; exists 0%Z; reflexivity|]. split; [intros (d & t & F); discriminate|intros (d & t & F); discriminate].
    + assert (E : files meanwhile q = files example_world q) by (apply set_other; apply above_length in A; intros <-; cbn in A; lia).
      unfold is_dir, is_file. rewrite E. auto.
  - eapply (OCall _ _ _ (Bool false)); [reflexivity|]. eapply (OCall _ _ _ (Bool true)); [reflexivity|]. eapply (OCall _ _ _ (Error FileExistsError)); [reflexivity|].
    eapply (OCall _ _ _ (Bool true)); [reflexivity|]. constructor.
  - reflexivity.
  - intros (t & F). discriminate.
Qed.
(** Another process writes to /1/2 just after touch("/1/2") and safe_unlink("/1/2") have looked *)
Definition written : world := set_file example_world [2; 1]%N (Some (File [7; 8]%N 6)).
Lemma written_wf : well_formed written.
Proof. apply wf_set; [apply example_wf|reflexivity|discriminate|]. left. intros n. cbn. destruct n as [|[n|[n|n|]|]]; reflexivity. Qed.
Example C74_among_others_witness :
  others_only (leave_alone [2; 1]%N) example_world [(example_world, example_world); (written, set_file written [2; 1]%N (Some (File [7; 8]%N 9)))] /\
  among_others (touch [2; 1]%N) [(example_world, example_world); (written, set_file written [2; 1]%N (Some (File [7; 8]%N 9)))] None.
Proof.
  split.
  - split; [split; [apply example_wf|split; [reflexivity|split; [reflexivity|auto]]]|]. split; [|exact I]. split; [apply written_wf|].
    split; [split; intros (t & F); discriminate|]. split; [split; intros _; [exists [7; 8]%N, 6%Z|exists [7]%N, 5%Z]; reflexivity|]. intros (t & F). exists t. exact F.
  - eapply (OCall _ _ _ (Bool true)); [reflexivity|]. eapply (OCall _ _ _ Done); [reflexivity|]. constructor.
Qed.
Example C73_among_others_witness :
  others_only (leave_file [2; 1]%N) example_world [(example_world, example_world); (written, set_file written [2; 1]%N None)] /\
  among_others (safe_unlink [2; 1]%N) [(example_world, example_world); (written, set_file written [2; 1]%N None)] None /\
  among_others (safe_unlink [2; 1]%N) [(example_world, example_world); (set_file written [2; 1]%N None, set_file written [2; 1]%N None)] (Some FileNotFoundError).
Proof.
  split; [|split].
  - split; [split; [apply example_wf|auto]|]. split; [|exact I]. split; [apply written_wf|]. intros _. exists [7; 8]%N, 6%Z. reflexivity.
  - eapply (OCall _ _ _ (Bool true)); [reflexivity|]. eapply (OCall _ _ _ Done); [reflexivity|]. constructor.
  - eapply (OCall _ _ _ (Bool true)); [reflexivity|]. eapply (OCall _ _ _ (Error FileNotFoundError)); [reflexivity|]. constructor.
Qed.
