(** The file system: lemmas for C72-C75. *)
From Verif Require Import FsModel FsSpec.

Lemma path_eqb_eq p q : path_eqb p q = true <-> p = q.
Proof. unfold path_eqb. destruct (list_eq_dec N.eq_dec p q); split; auto; discriminate. Qed.
Lemma path_eqb_refl p : path_eqb p p = true. Proof. now apply path_eqb_eq. Qed.
Lemma path_eqb_neq p q : path_eqb p q = false <-> p <> q.
Proof. unfold path_eqb. destruct (list_eq_dec N.eq_dec p q); split; auto; try discriminate. congruence. Qed.
Lemma set_same w p o : files (set_file w p o) p = o. Proof. cbn. now rewrite path_eqb_refl. Qed.
Lemma set_other w p o q : p <> q -> files (set_file w p o) q = files w q.
Proof. intros N. cbn. apply path_eqb_neq in N. now rewrite N. Qed.

Lemma above_refl p : above p p. Proof. now exists []. Qed.
Lemma above_cases q n p : above q (n :: p) <-> q = n :: p \/ above q p.
Proof.
  split.
  - intros [[|m x] E]; [left; now symmetry|]. injection E as -> ->. right. now exists x.
  - intros [->|[x ->]]; [apply above_refl|now exists (n :: x)].
Qed.
Lemma strictly_cases q n p : strictly_above q (n :: p) <-> above q p.
Proof. split; [intros (m & x & E); injection E as -> ->; now exists x|intros [x ->]; now exists n, x]. Qed.
Lemma above_length q p : above q p -> length q <= length p.
Proof. intros [x ->]. rewrite app_length. lia. Qed.
Lemma above_neq q n p : above q p -> q <> n :: p.
Proof. intros A ->. apply above_length in A. cbn in A. lia. Qed.

Lemma ancestors w n p : well_formed w -> files w (n :: p) <> None -> forall q, above q p -> is_dir w q.
Proof.
  intros [R W]. revert n. induction p as [|m p IH]; intros n H q A.
  - destruct A as [x E]. destruct x; [cbn in E; subst; auto|discriminate].
  - apply above_cases in A as [->|A]; [exact (W n _ H)|]. apply (IH m); auto. destruct (W n _ H) as [t E]. congruence.
Qed.
Lemma traverse_dirs w p : traverse w p = None <-> forall q, strictly_above q p -> is_dir w q.
Proof.
  induction p as [|n p IH]; cbn [traverse].
  - split; auto. intros _ q (m & x & E). discriminate.
  - split.
    + destruct (traverse w p) eqn:T; [discriminate|]. destruct (files w p) as [[d t|t]|] eqn:F; try discriminate. intros _ q A. apply strictly_cases in A.
      destruct p as [|m p]; [destruct A as [[|a x] E]; [cbn in E; subst q; now exists t|discriminate]|]. apply above_cases in A as [->|A]; [now exists t|]. apply (proj1 IH eq_refl). now apply strictly_cases.
    + intros H. assert (T : traverse w p = None) by (apply IH; intros q A; apply H; apply strictly_cases; destruct A as (m & x & ->); now exists (m :: x)).
      rewrite T. destruct (H p) as [t E]; [apply strictly_cases, above_refl|]. now rewrite E.
Qed.
Lemma traverse_exists w p : well_formed w -> files w p <> None -> traverse w p = None.
Proof. intros W H. apply traverse_dirs. intros q A. destruct p as [|n p]; [destruct A as (m & x & E); discriminate|]. apply strictly_cases in A. exact (ancestors w n p W H q A). Qed.
Lemma traverse_parent w n p : well_formed w -> is_dir w p -> traverse w (n :: p) = None.
Proof. intros W [t D]. cbn. rewrite traverse_exists, D by (auto; congruence). reflexivity. Qed.
Lemma stat_some w p x : well_formed w -> files w p = Some x -> stat w p = inl x.
Proof. intros W E. unfold stat. now rewrite traverse_exists, E by (auto; congruence). Qed.
Lemma stat_none w p : files w p = None -> exists e, stat w p = inr e.
Proof. intros E. unfold stat. destruct (traverse w p); [eauto|]. rewrite E. eauto. Qed.
Lemma stat_files w p x : stat w p = inl x -> files w p = Some x.
Proof. unfold stat. destruct (traverse w p); [discriminate|]. destruct (files w p); [congruence|discriminate]. Qed.
Lemma traverse_set w p o : traverse (set_file w p o) p = traverse w p.
Proof.
  assert (K : forall x r, traverse (set_file w (x ++ r) o) r = traverse w r); [|exact (K [] p)].
  intros x r. revert x. induction r as [|n r IH]; intros x; auto. cbn [traverse]. replace (x ++ n :: r) with ((x ++ [n]) ++ r) by now rewrite <- app_assoc.
  rewrite IH. destruct (traverse w r); auto. rewrite set_other; auto. intros E. apply (f_equal (@length N)) in E. rewrite !app_length in E. cbn in E. lia.
Qed.
Lemma wf_set w p x : well_formed w -> traverse w p = None -> p <> [] -> (forall n, files w (n :: p) = None) \/ is_dir w p /\ (exists t, x = Dir t) -> well_formed (set_file w p (Some x)).
Proof.
  intros [[t R] W] T Np C. split.
  - exists t. rewrite set_other; auto.
  - intros n q H. destruct (list_eq_dec N.eq_dec p q) as [->|N].
    + destruct C as [C|[_ [t' ->]]]; [|exists t'; now rewrite set_same]. exfalso. rewrite set_other in H; [auto|]. intros X. apply (f_equal (@length N)) in X. cbn in X. lia.
    + unfold is_dir. rewrite set_other by auto. destruct (list_eq_dec N.eq_dec p (n :: q)) as [->|N2].
      * destruct (proj1 (traverse_dirs w (n :: q)) T q) as [t' E]; [apply strictly_cases, above_refl|]. now exists t'.
      * apply (W n q). now rewrite set_other in H by auto.
Qed.
Lemma wf_remove w p : well_formed w -> is_file w p -> well_formed (set_file w p None).
Proof.
  intros [[t R] W] (d & m & F). assert (Np : p <> []) by (intros ->; congruence). split.
  - exists t. rewrite set_other; auto.
  - intros n q H. destruct (list_eq_dec N.eq_dec p (n :: q)) as [->|N2]; [now rewrite set_same in H|]. rewrite set_other in H by auto. destruct (W n q H) as [t' E].
    exists t'. rewrite set_other; auto. intros ->. congruence.
Qed.

(** ** makedirs on its own *)
Definition created (w : world) (p : path) (w' : world) : Prop :=
  (forall q, above q p -> files w q = None -> files w' q = Some (Dir (clock w))) /\
  (forall q, ~ above q p \/ files w q <> None -> files w' q = files w q) /\ clock w' = clock w /\ cwd w' = cwd w.
Lemma kind w p : {exists t, files w p = Some (Dir t)} + {exists d t, files w p = Some (File d t)} + {files w p = None}.
Proof. destruct (files w p) as [[d t|t]|]; [left; right|left; left|right]; eauto. Qed.
Lemma mkdir_step p w ret exc : well_formed w -> traverse w p = None -> ~ is_file w p ->
  exists w', run (mkdir_exist_ok p ret exc) w = run ret w' /\ well_formed w' /\ is_dir w' p /\ clock w' = clock w /\ cwd w' = cwd w /\
    (files w p = None -> files w' p = Some (Dir (clock w))) /\ (forall q, q <> p \/ files w q <> None -> files w' q = files w q).
Proof.
  intros W T NF. unfold mkdir_exist_ok. cbn [run do]. rewrite T. destruct (files w p) as [x|] eqn:F.
  - destruct x as [d m|m]; [exfalso; apply NF; now exists d, m|]. cbn [run do]. rewrite (stat_some w p _ W F). cbn [yes]. exists w. split; [reflexivity|]. split; [auto|]. split; [now exists m|]. split; [reflexivity|]. split; [reflexivity|]. split; [congruence|auto].
  - cbn [run]. exists (set_file w p (Some (Dir (clock w)))). split; [reflexivity|].
    assert (Np : p <> []) by (intros ->; destruct W as [[t R] _]; congruence).
    split. { apply wf_set; auto. left. intros n. destruct (files w (n :: p)) eqn:C; auto. exfalso. destruct W as [_ W]. destruct (W n p) as [t E]; congruence. }
    split; [exists (clock w); apply set_same|]. split; auto. split; auto. split; [intros _; apply set_same|]. intros q [N|N]; [apply set_other; auto|]. apply set_other. intros ->. congruence.
Qed.
Lemma makedirs_ok p : forall w ret exc, well_formed w -> (forall q, above q p -> ~ is_file w q) ->
  exists w', run (makedirs p ret exc) w = run ret w' /\ created w p w' /\ well_formed w' /\ is_dir w' p.
Proof.
  induction p as [|n p IH]; intros w ret exc W NF.
  - destruct (mkdir_step [] w ret exc W eq_refl (NF [] (above_refl []))) as (w' & E & W' & D & C & C' & F1 & F2). exists w'. split; auto. split; [|auto].
    split; [|split; [|auto]]; intros q; [intros [x A] H; destruct x; [cbn in A; subst q; auto|discriminate]|]. intros H. apply F2. destruct H as [H|H]; [left; intros ->; apply H, above_refl|auto].
  - cbn [makedirs run do].
    assert (NFp : forall q, above q p -> ~ is_file w q) by (intros q A; apply NF; apply above_cases; auto).
    destruct (kind w p) as [[D|F]|F].
    + destruct D as [t D]. rewrite (stat_some w p _ W D). cbn [yes].
      destruct (mkdir_step (n :: p) w ret exc W) as (w' & E & W' & D' & C & C' & F1 & F2); [apply traverse_parent; [auto|now exists t]|apply NF, above_refl|].
      exists w'. split; auto. split; [|auto]. split; [|split; [|auto]].
      * intros q A H. apply above_cases in A as [->|A]; auto. exfalso. destruct p as [|m p].
        -- destruct A as [[|a x] A]; [cbn in A; subst q; congruence|discriminate].
        -- apply above_cases in A as [->|A]; [congruence|]. destruct (ancestors w m p W) with (q := q) as [t' E']; [congruence|auto|congruence].
      * intros q H. apply F2. destruct H as [H|H]; auto. left. intros ->. apply H, above_refl.
    + exfalso. apply (NFp p (above_refl p)), F.
    + destruct (stat_none w p F) as [e S]. rewrite S. cbn [yes].
      destruct (IH w (mkdir_exist_ok (n :: p) ret exc) (fun e => match e with FileExistsError => mkdir_exist_ok (n :: p) ret exc | _ => exc e end) W NFp) as (w1 & E1 & (A1 & A2 & A3 & A4) & W1 & D1).
      assert (F0 : files w (n :: p) = None). { destruct (files w (n :: p)) eqn:Q; auto. destruct W as [_ W]. destruct (W n p) as [t E]; congruence. }
      assert (F1' : files w1 (n :: p) = None). { rewrite A2; auto. left. intros X. apply above_neq with (n := n) in X. congruence. }
      destruct (mkdir_step (n :: p) w1 ret exc W1) as (w' & E & W' & D' & C & C' & F1 & F2); [now apply traverse_parent|intros (d & t & X); congruence|].
      exists w'. split; [now rewrite E1|]. split; [|auto]. split; [|split; [|split; congruence]].
      * intros q A H. apply above_cases in A as [->|A]; [rewrite F1 by auto; congruence|]. rewrite F2; [auto|]. left. now apply above_neq.
      * intros q H. rewrite F2. { apply A2. destruct H as [H|H]; auto. left. intros A. apply H. apply above_cases. auto. }
        destruct H as [H|H]; left; [intros ->; apply H, above_refl|congruence].
Qed.
Lemma makedirs_blocked p : forall w ret exc, well_formed w -> (exists q, strictly_above q p /\ is_file w q) ->
  run (makedirs p ret exc) w = run (exc NotADirectoryError) w.
Proof.
  induction p as [|n p IH]; intros w ret exc W (q & A & (d & t & F)); [destruct A as (m & x & E); discriminate|].
  apply strictly_cases in A. cbn [makedirs run do]. assert (C : q = p \/ strictly_above q p). { destruct p as [|m p]; [destruct A as [[|a x] E]; [left; now symmetry|discriminate]|]. apply above_cases in A as [->|A]; auto. right. now apply strictly_cases. }
  destruct C as [->|C].
  - rewrite (stat_some w p _ W F). cbn [yes]. unfold mkdir_exist_ok. assert (T : traverse w (n :: p) = Some NotADirectoryError). { cbn [traverse]. rewrite traverse_exists, F by (auto; congruence). reflexivity. }
    cbn [run do]. rewrite T. cbn [run do]. unfold stat. rewrite T. reflexivity.
  - assert (Fp : files w p = None). { destruct (files w p) eqn:Q; auto. destruct p as [|m p]; [destruct C as (a & x & E); discriminate|]. apply strictly_cases in C. destruct (ancestors w m p W) with (q := q) as [t' E']; [congruence|auto|congruence]. }
    destruct (stat_none w p Fp) as [e S]. rewrite S. cbn [yes]. rewrite IH; [reflexivity|auto|]. exists q. split; auto. now exists d, t.
Qed.

(** ** among others *)
Lemma stat_after_mkdir w p t : traverse w p = None -> stat (set_file w p (Some (Dir t))) p = inl (Dir t).
Proof. intros T. unfold stat. now rewrite traverse_set, T, set_same. Qed.
Definition dir_seen (p : path) (tr : list (world * world)) : Prop := exists w1 w2 t, In (w1, w2) tr /\ stat w2 p = inl (Dir t).
Lemma mkdir_seen p ret exc tr o : among_others (mkdir_exist_ok p ret exc) tr o ->
  (exists tr1 tr2, tr = tr1 ++ tr2 /\ dir_seen p tr1 /\ among_others ret tr2 o) \/ (exists e tr1 tr2, tr = tr1 ++ tr2 /\ among_others (exc e) tr2 o).
Proof.
  unfold mkdir_exist_ok. intros H. inversion H as [| |c k w1 a w2 tr' o' D R]; subst. cbn [do] in D.
  assert (Go : forall e, among_others (Call (Isdir p) (fun b => if yes b then ret else exc e)) tr' o ->
    (exists tr1 tr2, (w1, w2) :: tr' = tr1 ++ tr2 /\ dir_seen p tr1 /\ among_others ret tr2 o) \/ (exists e tr1 tr2, (w1, w2) :: tr' = tr1 ++ tr2 /\ among_others (exc e) tr2 o)).
  { intros e R'. inversion R' as [| |c k v1 a' v2 tr'' o' D' R'']; subst. cbn [do] in D'. injection D' as <- <-. destruct (stat v1 p) as [[d t|t]|e'] eqn:S; cbn [yes] in R''.
    - right. exists e, [(w1, w2); (v1, v1)], tr''. auto.
    - left. exists [(w1, w2); (v1, v1)], tr''. split; auto. split; auto. exists v1, v1, t. split; [right; now left|auto].
    - right. exists e, [(w1, w2); (v1, v1)], tr''. auto. }
  destruct (traverse w1 p) eqn:T; [injection D as <- <-; eapply Go; exact R|]. destruct (files w1 p) eqn:F; [injection D as <- <-; eapply Go; exact R|].
  injection D as <- <-. left. exists [(w1, set_file w1 p (Some (Dir (clock w1))))], tr'. split; auto. split; auto. exists w1, (set_file w1 p (Some (Dir (clock w1)))), (clock w1). split; [now left|now apply stat_after_mkdir].
Qed.
Lemma makedirs_seen p : forall ret exc tr o, among_others (makedirs p ret exc) tr o ->
  (exists tr1 tr2, tr = tr1 ++ tr2 /\ dir_seen p tr1 /\ among_others ret tr2 o) \/ (exists e tr1 tr2, tr = tr1 ++ tr2 /\ among_others (exc e) tr2 o).
Proof.
  assert (Pre : forall q t0 tr1, dir_seen q tr1 -> dir_seen q (t0 ++ tr1)) by (intros q t0 tr1 (a & b & t & I & S); exists a, b, t; split; auto; apply in_or_app; auto).
  induction p as [|n p IH]; intros ret exc tr o H; [now apply mkdir_seen|].
  cbn [makedirs] in H. inversion H as [| |c k w1 a w2 tr' o' D R]; subst. clear H.
  assert (K : forall tr', among_others (mkdir_exist_ok (n :: p) ret exc) tr' o -> forall t0, (exists tr1 tr2, t0 ++ tr' = tr1 ++ tr2 /\ dir_seen (n :: p) tr1 /\ among_others ret tr2 o) \/ (exists e tr1 tr2, t0 ++ tr' = tr1 ++ tr2 /\ among_others (exc e) tr2 o)).
  { intros t1 H t0. destruct (mkdir_seen _ _ _ _ _ H) as [(x & y & -> & S & A)|(e & x & y & -> & A)]; [left; exists (t0 ++ x), y|right; exists e, (t0 ++ x), y]; rewrite <- app_assoc; auto. }
  destruct (yes a).
  - exact (K tr' R [(w1, w2)]).
  - destruct (IH _ _ _ _ R) as [(x & y & -> & S & A)|(e & x & y & -> & A)].
    + exact (K y A ((w1, w2) :: x)).
    + destruct e; try exact (K y A ((w1, w2) :: x)); right; eexists; exists ((w1, w2) :: x), y; split; [reflexivity|exact A|reflexivity|exact A|reflexivity|exact A].
Qed.

(** what a call of safe_mkdir itself may do *)
Definition only (ok : world -> world -> Prop) (tr : list (world * world)) : Prop := forall w1 w2, In (w1, w2) tr -> ok w1 w2.
Definition makes (p : path) (w1 w2 : world) : Prop :=
  w2 = w1 \/ exists q, above q p /\ files w1 q = None /\ w2 = set_file w1 q (Some (Dir (clock w1))).
Lemma mkdir_only p q ret exc tr o : above q p -> among_others (mkdir_exist_ok q ret exc) tr o ->
  (forall tr o, among_others ret tr o -> only (makes p) tr) -> (forall e tr o, among_others (exc e) tr o -> only (makes p) tr) -> only (makes p) tr.
Proof.
  intros A H Hr He. unfold mkdir_exist_ok in H. inversion H as [| |c k w1 a w2 tr' o' D R]; subst. cbn [do] in D.
  assert (Go : forall e, among_others (Call (Isdir q) (fun b => if yes b then ret else exc e)) tr' o -> only (makes p) tr').
  { intros e R'. inversion R' as [| |c k v1 a' v2 tr'' o' D' R'']; subst. cbn [do] in D'. injection D' as <- <-. intros x y [I|I]; [injection I as <- <-; now left|]. destruct (yes _); [eapply Hr|eapply He]; eauto. }
  assert (W : makes p w1 w2). { destruct (traverse w1 q); [injection D as <- <-; now left|]. destruct (files w1 q) eqn:F; injection D as <- <-; [now left|]. right. eauto. }
  intros x y [I|I]; [injection I as <- <-; auto|]. destruct a; [eapply Hr; eauto|eapply Hr; eauto|exact (Go e R x y I)].
Qed.
Lemma makedirs_only p q : above q p -> forall ret exc tr o, among_others (makedirs q ret exc) tr o ->
  (forall tr o, among_others ret tr o -> only (makes p) tr) -> (forall e tr o, among_others (exc e) tr o -> only (makes p) tr) -> only (makes p) tr.
Proof.
  induction q as [|n q IH]; intros A ret exc tr o H Hr He; [eapply mkdir_only; eauto|].
  cbn [makedirs] in H. inversion H as [| |c k w1 a w2 tr' o' D R]; subst. cbn [do] in D. injection D as <- <-.
  intros x y [I|I]; [injection I as <- <-; now left|].
  assert (A' : above q p) by (destruct A as [z ->]; exists (z ++ [n]); now rewrite <- app_assoc).
  assert (M : forall tr o, among_others (mkdir_exist_ok (n :: q) ret exc) tr o -> only (makes p) tr) by (intros t' o'' X; exact (mkdir_only p (n :: q) ret exc t' o'' A X Hr He)).
  destruct (yes _); [exact (M _ _ R x y I)|]. refine (IH A' _ _ _ _ R M _ x y I). intros [] t o'; [apply He|apply M|apply He|apply He].
Qed.

(** ** several at once *)
Section Pool.
  Context (R : world -> world -> Prop) (Rtrans : forall a b c, R a b -> R b c -> R a c).
  Fixpoint safe (post : world -> Prop) (f : prog) (w : world) : Prop :=
    match f with
    | Return => post w
    | Raise _ => False
    | Call c k => forall w1, R w w1 -> R w1 (snd (do c w1)) /\ safe post (k (fst (do c w1))) (snd (do c w1))
    end.
  Definition stable (post : world -> Prop) : Prop := forall w w', R w w' -> post w -> post w'.
  Lemma safe_stable post f w w' : stable post -> R w w' -> safe post f w -> safe post f w'.
  Proof. intros S H. destruct f; cbn; eauto. Qed.
  Lemma turn_safe posts : Forall stable posts -> forall i threads w, R w w ->
    Forall2 (fun post f => safe post f w) posts threads ->
    let '(threads', w') := turn i threads w in R w w' /\ Forall2 (fun post f => safe post f w') posts threads'.
  Proof.
    intros St. induction posts as [|post posts IH]; intros i threads w Rw F; inversion F as [|p0 f ps0 l S F']; subst; [destruct i; cbn; auto|].
    inversion St as [|? ? S1 S2]; subst. destruct i as [|i].
    - cbn [turn]. destruct f as [|e|c k]; [auto|auto|]. destruct (S w Rw) as [G1 G2]. destruct (do c w) as [a w'] eqn:D. cbn [fst snd] in *. split; auto. constructor; auto.
      clear - Rtrans F' G1 S2. induction F' as [|p f ps fs S F' IH]; constructor; inversion S2; subst; auto. eapply safe_stable; eauto.
    - cbn [turn]. specialize (IH S2 i l w Rw F'). destruct (turn i l w) as [l' w']. destruct IH as [G1 G2]. split; auto. constructor; auto. eapply safe_stable; eauto.
  Qed.
  Lemma interleave_safe posts : Forall stable posts -> (forall w w', R w w' -> R w' w') -> forall schedule threads w, R w w ->
    Forall2 (fun post f => safe post f w) posts threads ->
    let '(threads', w') := interleave schedule threads w in R w w' /\ Forall2 (fun post f => safe post f w') posts threads'.
  Proof.
    intros St Rr. induction schedule as [|i schedule IH]; intros threads w Rw F; cbn [interleave]; auto.
    pose proof (turn_safe posts St i threads w Rw F) as T. destruct (turn i threads w) as [threads' w']. destruct T as [G1 G2].
    specialize (IH threads' w' (Rr w w' G1) G2). destruct (interleave schedule threads' w') as [t w'']. destruct IH as [H1 H2]. split; auto. now apply (Rtrans w w').
  Qed.
End Pool.
(** others only make directories *)
Record grows (w w' : world) : Prop := {
  g_wf : well_formed w -> well_formed w';
  g_some : forall q x, files w q = Some x -> files w' q = Some x;
  g_none : forall q, files w q = None -> files w' q = None \/ is_dir w' q }.
Lemma grows_refl w : grows w w. Proof. split; auto. Qed.
Lemma grows_trans a b c : grows a b -> grows b c -> grows a c.
Proof. intros [A1 A2 A3] [B1 B2 B3]. split; auto. intros q H. destruct (A3 q H) as [H'|[t H']]; auto. right. exists t. auto. Qed.
Lemma grows_dir w w' p : grows w w' -> is_dir w p -> is_dir w' p.
Proof. intros G [t D]. exists t. now apply (g_some _ _ G). Qed.
Lemma grows_nofile w w' p : grows w w' -> ~ is_file w p -> ~ is_file w' p.
Proof.
  intros G N (d & t & F). destruct (files w p) as [x|] eqn:E; [|destruct (g_none _ _ G p E) as [X|[t' X]]; congruence]. rewrite (g_some _ _ G p x E) in F. apply N. exists d, t. congruence.
Qed.
Lemma grows_mkdir w p : well_formed w -> traverse w p = None -> files w p = None -> grows w (set_file w p (Some (Dir (clock w)))).
Proof.
  intros W T F. assert (Np : p <> []) by (intros ->; destruct W as [[t R] _]; congruence). split.
  - intros _. apply wf_set; auto. left. intros n. destruct (files w (n :: p)) eqn:C; auto. exfalso. destruct W as [_ W]. destruct (W n p) as [t E]; congruence.
  - intros q x E. rewrite set_other; auto. congruence.
  - intros q E. destruct (list_eq_dec N.eq_dec p q) as [->|N]; [right; exists (clock w); apply set_same|left; now rewrite set_other].
Qed.
Lemma mkdir_safe post p ret exc w : well_formed w -> (forall q, strictly_above q p -> is_dir w q) -> ~ is_file w p ->
  (forall w', grows w w' -> is_dir w' p -> safe grows post ret w') -> safe grows post (mkdir_exist_ok p ret exc) w.
Proof.
  intros W D NF H. unfold mkdir_exist_ok. cbn [safe]. intros w1 G. pose proof (g_wf _ _ G W) as W1.
  assert (T : traverse w1 p = None) by (apply traverse_dirs; intros q A; eapply grows_dir; eauto). cbn [do]. rewrite T.
  destruct (files w1 p) as [x|] eqn:F; cbn [fst snd safe].
  - split; [apply grows_refl|]. intros w2 G2. cbn [do fst snd]. split; [apply grows_refl|].
    assert (D1 : is_dir w1 p). { destruct x as [d t|t]; [|now exists t]. exfalso. apply (grows_nofile _ _ p G NF). now exists d, t. }
    destruct (grows_dir _ _ p G2 D1) as [t D2]. rewrite (stat_some w2 p _ (g_wf _ _ G2 W1) D2). cbn [yes]. apply H; [eapply grows_trans; eauto|now exists t].
  - split; [now apply grows_mkdir|]. apply H; [eapply grows_trans; [exact G|now apply grows_mkdir]|]. exists (clock w1). apply set_same.
Qed.
Lemma makedirs_safe post p : forall ret exc w, well_formed w -> (forall q, above q p -> ~ is_file w q) ->
  (forall w', grows w w' -> is_dir w' p -> safe grows post ret w') -> safe grows post (makedirs p ret exc) w.
Proof.
  induction p as [|n p IH]; intros ret exc w W NF H.
  - apply mkdir_safe; auto; [intros q (m & x & E); discriminate|apply NF, above_refl].
  - cbn [makedirs safe]. intros w1 G. cbn [do fst snd]. split; [apply grows_refl|]. pose proof (g_wf _ _ G W) as W1.
    assert (NF1 : forall q, above q (n :: p) -> ~ is_file w1 q) by (intros q A; eapply grows_nofile; eauto).
    assert (M : forall w', grows w1 w' -> is_dir w' p -> safe grows post (mkdir_exist_ok (n :: p) ret exc) w').
    { intros w' G' D. pose proof (g_wf _ _ G' W1) as W'. apply mkdir_safe; auto.
      - intros q A. apply strictly_cases in A. destruct p as [|m p]; [destruct A as [[|a x] E]; [cbn in E; now subst q|discriminate]|].
        apply above_cases in A as [->|A]; auto. destruct D as [t D]. apply (ancestors w' m p W'); auto. congruence.
      - eapply grows_nofile; [exact G'|apply NF1, above_refl].
      - intros w'' G'' D'. apply H; auto. eapply grows_trans; [exact G|eapply grows_trans; eauto]. }
    destruct (kind w1 p) as [[[t D]|F]|F].
    + rewrite (stat_some w1 p _ W1 D). cbn [yes]. apply M; [apply grows_refl|now exists t].
    + exfalso. apply (NF1 p); [apply above_cases; right; apply above_refl|exact F].
    + destruct (stat_none w1 p F) as [e S]. rewrite S. cbn [yes]. apply IH; auto. intros q A. apply NF1. apply above_cases. auto.
Qed.
Lemma safe_mkdir_safe p w : well_formed w -> (forall q, above q p -> ~ is_file w q) -> safe grows (fun w => is_dir w p) (safe_mkdir p) w.
Proof.
  intros W NF. unfold safe_mkdir. cbn [safe]. intros w1 G. cbn [do fst snd]. split; [apply grows_refl|].
  assert (NF1 : forall q, above q p -> ~ is_file w1 q) by (intros q A; eapply grows_nofile; eauto). pose proof (g_wf _ _ G W) as W1.
  replace (yes _) with false; [apply makedirs_safe; auto|]. symmetry. destruct (stat w1 p) as [[d t|t]|e] eqn:S; auto. exfalso. apply (NF1 p (above_refl p)). exists d, t. now apply stat_files.
Qed.
