(** The properties C72 (safe_mkdir), C73 (safe_unlink), C74 (touch) and C75 (pushd). *)
From Verif Require Import FsModel FsSpec FsProof.

(** ** C72: safe_mkdir *)
(** Alone: it fails exactly if path is below a file, and then nothing is changed.  Otherwise path and everything
    above it is a directory afterwards, and nothing else changes, except that a file at path is gone. *)
Theorem C72_alone : forall p w, well_formed w ->
  ((exists q, strictly_above q p /\ is_file w q) -> run (safe_mkdir p) w = (Some NotADirectoryError, w)) /\
  ((forall q, strictly_above q p -> ~ is_file w q) -> exists w', run (safe_mkdir p) w = (None, w') /\ well_formed w' /\
     (forall q, above q p -> is_dir w' q) /\
     (forall q, ~ above q p \/ is_dir w q -> files w' q = files w q) /\ clock w' = clock w /\ cwd w' = cwd w).
Proof.
  intros p w W. split.
  - intros (q & A & F). unfold safe_mkdir. cbn [run do]. replace (yes _) with false; [rewrite makedirs_blocked; eauto|].
    symmetry. destruct (stat w p) as [[d t|t]|e] eqn:S; auto. exfalso. apply stat_files in S. destruct p as [|n p]; [destruct A as (m & x & E); discriminate|].
    apply strictly_cases in A. destruct F as (d' & t' & F). destruct (ancestors w n p W) with (q := q) as [t'' E]; congruence.
  - intros NF. unfold safe_mkdir. cbn [run do].
    assert (K : forall w1, well_formed w1 -> clock w1 = clock w -> cwd w1 = cwd w -> (forall q, q <> p -> files w1 q = files w q) -> ~ is_file w1 p -> (files w1 p = None \/ files w1 p = files w p) ->
       exists w', run (makedirs p Return Raise) w1 = (None, w') /\ well_formed w' /\ (forall q, above q p -> is_dir w' q) /\ (forall q, ~ above q p \/ is_dir w q /\ (q = p -> is_dir w1 p) -> files w' q = files w q) /\ clock w' = clock w /\ cwd w' = cwd w).
    { intros w1 W1 C1 C2 O NFp Ep.
      destruct (makedirs_ok p w1 Return Raise W1) as (w' & E & (A1 & A2 & A3 & A4) & W' & D).
      { intros q A (d & t & F). destruct (list_eq_dec N.eq_dec q p) as [->|N]; [apply NFp; now exists d, t|]. rewrite O in F by auto. apply (NF q); [|now exists d, t].
        destruct p as [|n p]; [destruct A as [[|a x] A]; [cbn in A; congruence|discriminate]|]. apply above_cases in A as [A|A]; [congruence|]. now apply strictly_cases. }
      exists w'. split; [now rewrite E|]. split; auto. split.
      - intros q A. destruct p as [|n p]; [destruct A as [[|a x] A]; [cbn in A; now subst q|discriminate]|]. apply above_cases in A as [->|A]; auto.
        destruct D as [t D]. apply (ancestors w' n p W'); auto. congruence.
      - split; [|split; congruence]. intros q H. destruct (list_eq_dec N.eq_dec q p) as [->|N].
        + destruct H as [H|[[t H] H']]; [exfalso; apply H, above_refl|]. destruct (H' eq_refl) as [t' H'']. rewrite A2 by (right; congruence). destruct Ep as [Ep|Ep]; congruence.
        + rewrite A2; [now apply O|]. destruct H as [H|[[t H] _]]; auto. right. rewrite O by auto. congruence. }
    destruct (stat w p) as [[d t|t]|e] eqn:S; cbn [yes].
    + cbn [run do]. rewrite S. pose proof (stat_files w p _ S) as F.
      destruct (K (set_file w p None)) as (w' & E & W' & D & O & C); auto.
      * apply wf_remove; auto. now exists d, t.
      * intros q N. apply set_other; auto.
      * intros (d' & t' & X). rewrite set_same in X. discriminate.
      * left. apply set_same.
      * exists w'. split; auto. split; auto. split; auto. split; auto. intros q H. apply O. destruct H as [H|H]; auto. right. split; auto. intros ->. destruct H as [t' H]. congruence.
    + apply stat_files in S. destruct (K w) as (w' & E & W' & D & O & C); auto.
      * intros (d & t' & X). congruence.
      * exists w'. split; auto. split; auto. split; auto. split; auto. intros q H. apply O. destruct H as [H|H]; auto. right. split; auto. intros ->. auto.
    + assert (NFp : ~ is_file w p) by (intros (d & t & X); rewrite (stat_some w p _ W X) in S; discriminate). destruct (K w) as (w' & E & W' & D & O & C); auto.
      exists w'. split; auto. split; auto. split; auto. split; auto. intros q H. apply O. destruct H as [H|H]; auto. right. split; auto. intros ->. auto.
Qed.
Print Assumptions C72_alone.
Lemma above_root q : above q [] -> q = [].
Proof. intros [[|a x] E]; [now symmetry|discriminate]. Qed.
(** The world used below: /1/2 is a file with the data 7. *)
Definition example_world : world :=
  World (fun p => match p with [] => Some (Dir 0) | [1%N] => Some (Dir 0) | [2%N; 1%N] => Some (File [7%N] 5) | _ => None end) 9 [].
Lemma example_wf : well_formed example_world.
Proof.
  split; [now exists 0%Z|]. intros n p H. destruct p as [|[|[q|q|]] [|m p]]; try (exists 0%Z; reflexivity); exfalso; apply H; destruct n as [|[q'|[q'|q'|]|]]; reflexivity.
Qed.
Example C72_alone_witness : well_formed example_world /\ (forall q, strictly_above q [4; 3; 1]%N -> ~ is_file example_world q) /\ (exists q, strictly_above q [3; 2; 1]%N /\ is_file example_world q) /\
  fst (run (safe_mkdir [2; 1]%N) example_world) = None /\ files (snd (run (safe_mkdir [2; 1]%N) example_world)) [2; 1]%N = Some (Dir 9).
Proof.
  split; [apply example_wf|]. split.
  - intros q A (d & t & F). apply strictly_cases in A. apply above_cases in A as [->|A]; [discriminate|]. apply above_cases in A as [->|A]; [discriminate|]. apply above_root in A as ->. discriminate.
  - split; [exists [2; 1]%N; split; [now exists 3%N, []|now exists [7%N], 5%Z]|]. split; reflexivity.
Qed.

(** Among other processes: if it returns, there was a directory at path at some moment during the call. *)
Theorem C72_guarantee : forall p tr, among_others (safe_mkdir p) tr None -> exists w1 w2 t, In (w1, w2) tr /\ stat w2 p = inl (Dir t).
Proof.
  intros p tr H. unfold safe_mkdir in H. inversion H as [| |c k w1 a w2 tr' o D R]; subst. clear H.
  assert (K : forall t0 tr', among_others (makedirs p Return Raise) tr' None -> dir_seen p (t0 ++ tr')).
  { intros t0 t' A. destruct (makedirs_seen _ _ _ _ _ A) as [(x & y & -> & (a' & b' & t & I & S) & _)|(e & x & y & _ & B)]; [|inversion B].
    exists a', b', t. split; auto. apply in_or_app. right. apply in_or_app. auto. }
  destruct (yes a); [|exact (K [(w1, w2)] tr' R)]. inversion R as [| |c k v1 b v2 tr'' o D' R']; subst.
  destruct b; [exact (K [(w1, w2); (v1, v2)] tr'' R')|exact (K [(w1, w2); (v1, v2)] tr'' R')|inversion R'].
Qed.
Print Assumptions C72_guarantee.
(** Whatever others do, its own calls only make directories, at path or above it, where nothing was, and remove a file at path. *)
Theorem C72_only : forall p tr o, among_others (safe_mkdir p) tr o -> forall w1 w2, In (w1, w2) tr ->
  w2 = w1 \/ (exists q, above q p /\ files w1 q = None /\ w2 = set_file w1 q (Some (Dir (clock w1)))) \/ (is_file w1 p /\ w2 = set_file w1 p None).
Proof.
  intros p tr o H. unfold safe_mkdir in H. inversion H as [| |c k w1 a w2 tr' o' D R]; subst. clear H.
  assert (K : forall tr', among_others (makedirs p Return Raise) tr' o -> only (makes p) tr').
  { intros t A. eapply makedirs_only; [apply above_refl|exact A|intros t' o' B; inversion B; intros x y []|intros e t' o' B; inversion B; intros x y []]. }
  cbn [do] in D. injection D as Ea Ew. intros x y [I|I]; [injection I as <- <-; auto|].
  assert (G : only (makes p) tr' -> y = x \/ (exists q, above q p /\ files x q = None /\ y = set_file x q (Some (Dir (clock x)))) \/ (is_file x p /\ y = set_file x p None)) by (intros O; destruct (O x y I); auto).
  destruct (yes a); [|now apply G, K]. clear G. inversion R as [| |c k v1 b v2 tr'' o'' D' R']; subst. cbn [do] in D'.
  destruct I as [I|I].
  - injection I as <- <-. destruct (stat v1 p) as [[d t|t]|e] eqn:S; injection D' as <- <-; auto. right. right. split; auto. exists d, t. now apply stat_files.
  - destruct b; [destruct (K tr'' R' x y I); auto|destruct (K tr'' R' x y I); auto|inversion R'; subst; destruct I].
Qed.
Print Assumptions C72_only.
(** Any number of safe_mkdir at once, in any order of their calls, none of them at or below a file: none fails, each
    that has returned has its directory, and all that was there is still there. *)
Theorem C72_concurrent : forall paths w schedule, well_formed w -> (forall p q, In p paths -> above q p -> ~ is_file w q) ->
  let (threads, w') := interleave schedule (map safe_mkdir paths) w in
  (forall i e, nth_error threads i <> Some (Raise e)) /\
  (forall i p, nth_error paths i = Some p -> nth_error threads i = Some Return -> is_dir w' p) /\
  (forall q x, files w q = Some x -> files w' q = Some x).
Proof.
  intros paths w schedule W NF.
  pose proof (interleave_safe grows grows_trans (map (fun p w => is_dir w p) paths)) as I.
  assert (St : Forall (stable grows) (map (fun p w => is_dir w p) paths)).
  { apply Forall_forall. intros post J. apply in_map_iff in J as (p & <- & _). intros a b G. now apply grows_dir. }
  specialize (I St (fun a b _ => grows_refl b) schedule (map safe_mkdir paths) w (grows_refl w)).
  assert (S0 : Forall2 (fun post f => safe grows post f w) (map (fun p w => is_dir w p) paths) (map safe_mkdir paths)).
  { clear I St. induction paths as [|p paths IH]; constructor; [apply safe_mkdir_safe; auto; intros q A; apply (NF p); [now left|auto]|]. apply IH. intros p' q J. apply NF. now right. }
  specialize (I S0). destruct (interleave schedule (map safe_mkdir paths) w) as [threads w']. destruct I as [G F].
  assert (Nth : forall i f, nth_error threads i = Some f -> exists post, nth_error (map (fun p w => is_dir w p) paths) i = Some post /\ safe grows post f w').
  { clear - F. induction F as [|post f posts threads S F IH]; intros [|i] g E; cbn in *; try discriminate; [injection E as <-; eauto|auto]. }
  split; [intros i e E; destruct (Nth i _ E) as (post & _ & []) |]. split.
  - intros i p Ep Er. destruct (Nth i _ Er) as (post & E & S). rewrite nth_error_map, Ep in E. injection E as <-. exact S.
  - exact (g_some _ _ G).
Qed.
Print Assumptions C72_concurrent.
Example C72_concurrent_witness : (forall q, above q [4; 3; 1]%N -> ~ is_file example_world q) /\
  let (threads, w') := interleave [0; 1; 0; 1; 0; 1; 0; 1; 0; 1; 0; 1; 0; 1; 0; 1] (map safe_mkdir [[4; 3; 1]%N; [3; 1]%N]) example_world in
  threads = [Return; Return] /\ files w' [4; 3; 1]%N = Some (Dir 9).
Proof.
  split; [|vm_compute; auto].
  intros q A (d & t & F). apply above_cases in A as [->|A]; [discriminate|]. apply above_cases in A as [->|A]; [discriminate|]. apply above_cases in A as [->|A]; [discriminate|]. apply above_root in A as ->. discriminate.
Qed.
(** But "a file at path is unlinked" is not safe: two processes that call safe_mkdir on the same file, and one of them fails. *)
Theorem C72_race_refuted : exists schedule e, well_formed example_world /\
  fst (interleave schedule [safe_mkdir [2; 1]%N; safe_mkdir [2; 1]%N] example_world) = [Return; Raise e] /\ e = FileNotFoundError.
Proof. exists [0; 1; 0; 1; 0; 0]%nat, FileNotFoundError. split; [apply example_wf|]. split; [vm_compute; reflexivity|reflexivity]. Qed.
Print Assumptions C72_race_refuted.

(** ** C73: safe_unlink *)
(** Alone: it never fails; afterwards there is no file at path, and nothing else has changed. *)
Theorem C73_alone : forall p w, well_formed w -> exists w', run (safe_unlink p) w = (None, w') /\ well_formed w' /\
  (is_file w p -> files w' p = None) /\ (~ is_file w p -> w' = w) /\ (forall q, q <> p -> files w' q = files w q) /\ clock w' = clock w /\ cwd w' = cwd w.
Proof.
  intros p w W. unfold safe_unlink. cbn [run do]. destruct (stat w p) as [[d t|t]|e] eqn:S; cbn [yes run].
  - cbn [do]. rewrite S. exists (set_file w p None). pose proof (stat_files w p _ S) as F. split; auto. split; [apply wf_remove; auto; now exists d, t|]. split; [intros _; apply set_same|].
    split; [intros N; exfalso; apply N; now exists d, t|]. split; [intros q N; apply set_other; auto|auto].
  - exists w. apply stat_files in S. split; auto. split; auto. split; [intros (d & t' & X); congruence|auto].
  - exists w. split; auto. split; auto. split; [intros (d & t & X); rewrite (stat_some w p _ W X) in S; discriminate|auto].
Qed.
Print Assumptions C73_alone.
Example C73_witness : well_formed example_world /\ is_file example_world [2; 1]%N /\ ~ is_file example_world [1%N].
Proof. split; [apply example_wf|]. split; [now exists [7%N], 5%Z|]. intros (d & t & E). discriminate. Qed.
(** Among others: its own calls only ever remove a file at path; and if it returns, there was no file at path at some moment. *)
Theorem C73_only : forall p tr o, among_others (safe_unlink p) tr o ->
  (forall w1 w2, In (w1, w2) tr -> w2 = w1 \/ (is_file w1 p /\ w2 = set_file w1 p None)) /\
  (o = None -> exists w1 w2, In (w1, w2) tr /\ forall d t, stat w2 p <> inl (File d t)).
Proof.
  intros p tr o H. unfold safe_unlink in H. inversion H as [| |c k w1 a w2 tr' o' D R]; subst. clear H. cbn [do] in D. injection D as <- <-.
  destruct (stat w1 p) as [[d t|t]|e] eqn:S; cbn [yes] in R.
  - inversion R as [| |c k v1 b v2 tr'' o'' D' R']; subst. cbn [do] in D'. destruct (stat v1 p) as [[d' t'|t']|e'] eqn:S'; injection D' as <- <-; inversion R'; subst.
    + split.
      * intros x y [I|[I|[]]]; injection I as <- <-; auto. right. split; auto. exists d', t'. now apply stat_files.
      * intros _. exists v1, (set_file v1 p None). split; [right; now left|]. intros d'' t'' X. apply stat_files in X. rewrite set_same in X. discriminate.
    + split; [intros x y [I|[I|[]]]; injection I as <- <-; auto|discriminate].
    + split; [intros x y [I|[I|[]]]; injection I as <- <-; auto|discriminate].
  - inversion R; subst. split; [intros x y [I|[]]; injection I as <- <-; auto|]. intros _. exists w1, w1. split; [now left|]. intros; congruence.
  - inversion R; subst. split; [intros x y [I|[]]; injection I as <- <-; auto|]. intros _. exists w1, w1. split; [now left|]. intros; congruence.
Qed.
Print Assumptions C73_only.
(** Not safe: two processes that call it for the same file, and one of them fails. *)
Theorem C73_race_refuted : exists schedule e, well_formed example_world /\
  fst (interleave schedule [safe_unlink [2; 1]%N; safe_unlink [2; 1]%N] example_world) = [Return; Raise e] /\ e = FileNotFoundError.
Proof. exists [0; 1; 0; 1]%nat, FileNotFoundError. split; [apply example_wf|]. split; [vm_compute; reflexivity|reflexivity]. Qed.
Print Assumptions C73_race_refuted.

(** ** C74: touch *)
Definition with_mtime (x : node) (t : Z) : node := match x with File d _ => File d t | Dir _ => Dir t end.
(** Alone: what is there keeps its contents and has the current time; where nothing is, there is an empty file;
    it fails exactly if the directory for it is missing, and then changes nothing.  Nothing else changes. *)
Theorem C74_alone : forall p w, well_formed w ->
  (files w p = None -> ~ is_dir w (tl p) -> exists e, run (touch p) w = (Some e, w)) /\
  (files w p <> None \/ is_dir w (tl p) -> exists w', run (touch p) w = (None, w') /\ well_formed w' /\
     (forall x, files w p = Some x -> files w' p = Some (with_mtime x (clock w))) /\
     (files w p = None -> files w' p = Some (File [] (clock w))) /\
     (forall q, q <> p -> files w' q = files w q) /\ clock w' = clock w /\ cwd w' = cwd w).
Proof.
  intros p w W. unfold touch. cbn [run do]. split.
  - intros F ND. destruct p as [|n p]; [destruct W as [[t R] _]; congruence|]. cbn [tl] in ND. destruct (stat_none w (n :: p) F) as [e S]. rewrite S. cbn [yes run do].
    destruct (traverse w (n :: p)) as [e'|] eqn:T; [cbn [run]; eauto|]. exfalso. apply ND. apply (proj1 (traverse_dirs w (n :: p)) T). apply strictly_cases, above_refl.
  - intros H. destruct (files w p) as [x|] eqn:F.
    + rewrite (stat_some w p x W F). cbn [yes run do]. rewrite (stat_some w p x W F). destruct x as [d t|t]; cbn [run].
      * exists (set_file w p (Some (File d (clock w)))). assert (Np : p <> []) by (intros ->; destruct W as [[t' R] _]; congruence). split; auto. split.
        { apply wf_set; auto; [apply traverse_exists; [auto|congruence]|]. left. intros n. destruct (files w (n :: p)) eqn:C; auto. destruct W as [_ W]. destruct (W n p) as [t' E]; congruence. }
        split; [intros x E; injection E as <-; apply set_same|]. split; [discriminate|]. split; [intros q N; apply set_other; auto|auto].
      * exists (set_file w p (Some (Dir (clock w)))). split; auto. split.
        { destruct p as [|n p].
          - destruct W as [_ W]. split; [exists (clock w); apply set_same|]. intros n q X. unfold is_dir. destruct q as [|m q]; [exists (clock w); apply set_same|]. rewrite set_other in * by discriminate. exact (W n _ X).
          - apply wf_set; auto; [apply traverse_exists; [auto|congruence]|discriminate|]. right. split; [now exists t|eauto]. }
        split; [intros x E; injection E as <-; apply set_same|]. split; [discriminate|]. split; [intros q N; apply set_other; auto|auto].
    + destruct H as [H|D]; [congruence|]. destruct p as [|n p]; [destruct W as [[t R] _]; congruence|]. cbn [tl] in D. destruct (stat_none w (n :: p) F) as [e S]. rewrite S. cbn [yes run do].
      pose proof (traverse_parent w n p W D) as T. rewrite T, F. cbn [run]. exists (set_file w (n :: p) (Some (File [] (clock w)))). split; auto. split.
      { apply wf_set; auto; [discriminate|]. left. intros m. destruct (files w (m :: n :: p)) eqn:C; auto. destruct W as [_ W]. destruct (W m (n :: p)) as [t' E]; congruence. }
      split; [discriminate|]. split; [intros _; apply set_same|]. split; [intros q N; apply set_other; auto|auto].
Qed.
Print Assumptions C74_alone.
Example C74_witness : files (snd (run (touch [2; 1]%N) example_world)) [2; 1]%N = Some (File [7%N] 9) /\ files (snd (run (touch [3; 1]%N) example_world)) [3; 1]%N = Some (File [] 9) /\ fst (run (touch [3; 3]%N) example_world) = Some FileNotFoundError.
Proof. repeat split. Qed.
(** Among others the contents are not safe: touch itself may empty a file (which another process made after touch looked);
    and it may fail although the directory is there (another process removes the file after touch looked). *)
Theorem C74_race_refuted : exists p tr w1 w2 d, among_others (touch p) tr None /\ In (w1, w2) tr /\ well_formed w1 /\ d <> [] /\
  (exists t, files w1 p = Some (File d t)) /\ (exists t, files w2 p = Some (File [] t)).
Proof.
  set (before := set_file example_world [2; 1]%N None).
  exists [2; 1]%N, [(before, before); (example_world, set_file example_world [2; 1]%N (Some (File [] 9%Z)))], example_world, (set_file example_world [2; 1]%N (Some (File [] 9%Z))), [7%N].
  split; [|split; [right; now left|split; [apply example_wf|split; [discriminate|split; [exists 5%Z; reflexivity|exists 9%Z; apply set_same]]]]].
  eapply OCall; [reflexivity|]. cbn [yes]. eapply OCall; [reflexivity|]. constructor.
Qed.
Print Assumptions C74_race_refuted.
Theorem C74_race_fails_refuted : exists schedule, fst (interleave schedule [touch [2; 1]%N; safe_unlink [2; 1]%N] example_world) = [Raise FileNotFoundError; Return] /\ is_dir example_world [1%N].
Proof. exists [0; 1; 1; 0]%nat. split; [vm_compute; reflexivity|now exists 0%Z]. Qed.
Print Assumptions C74_race_fails_refuted.
(** What it does itself concerns path only. *)
Theorem C74_only : forall p tr o, among_others (touch p) tr o -> forall w1 w2, In (w1, w2) tr ->
  (forall q, q <> p -> files w2 q = files w1 q) /\ (forall t, files w1 p = Some (Dir t) -> exists t', files w2 p = Some (Dir t')) /\ (files w1 p <> None -> files w2 p <> None).
Proof.
  intros p tr o H. unfold touch in H. inversion H as [| |c k w1 a w2 tr' o' D R]; subst. clear H. cbn [do] in D. injection D as <- <-.
  cbn beta in R. destruct (stat w1 p) as [x0|e0]; cbn [yes] in R; inversion R as [| |c k v1 b v2 tr'' o'' D' R']; subst; cbn [do] in D'.
  all: assert (V : (forall q, q <> p -> files v2 q = files v1 q) /\ (forall t, files v1 p = Some (Dir t) -> exists t', files v2 p = Some (Dir t')) /\ (files v1 p <> None -> files v2 p <> None)).
  1: { destruct (stat v1 p) as [[d t|t]|e] eqn:S; injection D' as <- <-; [apply stat_files in S|apply stat_files in S|].
      + split; [intros q N; apply set_other; auto|]. split; [intros; congruence|]. rewrite set_same. discriminate.
      + split; [intros q N; apply set_other; auto|]. rewrite set_same. split; [intros; eauto|discriminate].
      + split; auto. split; eauto. }
  2: { destruct (traverse v1 p); [injection D' as <- <-; split; auto; split; eauto|]. destruct (files v1 p) as [[d t|t]|] eqn:F; injection D' as <- <-.
      + split; [intros q N; apply set_other; auto|]. rewrite set_same. split; [discriminate|discriminate].
      + rewrite F. split; auto. split; eauto.
      + split; [intros q N; apply set_other; auto|]. split; [discriminate|congruence]. }
  all: intros x y [I|[I|I]]; [injection I as <- <-; split; auto; split; eauto|injection I as <- <-; exact V|destruct b; inversion R'; subst; destruct I].
Qed.
Print Assumptions C74_only.

(** Any number of touch at once, in any order of their calls, in directories that are there: none fails, no contents change,
    and what each touched has the current time. *)
Record touched (w w' : world) : Prop := {
  t_wf : well_formed w -> well_formed w'; t_clock : clock w' = clock w;
  t_some : forall q x, files w q = Some x -> files w' q = Some x \/ files w' q = Some (with_mtime x (clock w));
  t_none : forall q, files w q = None -> files w' q = None \/ exists t, files w' q = Some (File [] t) }.
Lemma touched_refl w : touched w w. Proof. split; auto. Qed.
Lemma with_mtime_twice x a b : with_mtime (with_mtime x a) b = with_mtime x b. Proof. now destruct x. Qed.
Lemma touched_trans a b c : touched a b -> touched b c -> touched a c.
Proof.
  intros [A1 A2 A3 A4] [B1 B2 B3 B4]. split; auto; [congruence| |].
  - intros q x E. destruct (A3 q x E) as [E'|E']; destruct (B3 q _ E') as [F|F]; rewrite ?with_mtime_twice, ?A2 in F; auto.
  - intros q E. destruct (A4 q E) as [E'|[t E']]; auto. destruct (B3 q _ E') as [F|F]; cbn [with_mtime] in F; eauto.
Qed.
Lemma touched_dir w w' p : touched w w' -> is_dir w p -> is_dir w' p.
Proof. intros G [t D]. destruct (t_some _ _ G p _ D) as [E|E]; [exists t|exists (clock w)]; exact E. Qed.
Lemma touched_set w p x : well_formed w -> traverse w p = None -> (exists y, files w p = Some y /\ x = with_mtime y (clock w)) \/ files w p = None /\ x = File [] (clock w) -> touched w (set_file w p (Some x)).
Proof.
  intros W T C. split.
  - intros _. destruct p as [|n p].
    + destruct W as [[t R] W]. assert (E : x = Dir (clock w)) by (destruct C as [(y & F & ->)|[F _]]; [rewrite R in F; injection F as <-; reflexivity|congruence]). subst x.
      split; [exists (clock w); apply set_same|]. intros n q X. unfold is_dir. destruct q as [|m q]; [exists (clock w); apply set_same|]. rewrite set_other in * by discriminate. exact (W n _ X).
    + apply wf_set; auto; [discriminate|].
      assert (D : is_dir w (n :: p) \/ forall m, files w (m :: n :: p) = None).
      { destruct (kind w (n :: p)) as [[D|(d & t & F)]|F]; auto; right; intros m; destruct (files w (m :: n :: p)) eqn:Q; auto; destruct W as [_ W]; destruct (W m (n :: p)) as [t' E]; congruence. }
      destruct D as [D|D]; auto. right. split; auto. destruct D as [t D]. destruct C as [(y & F & ->)|[F _]]; [|congruence]. rewrite D in F. injection F as <-. eauto.
  - reflexivity.
  - intros q y E. destruct (list_eq_dec N.eq_dec p q) as [->|N]; [|left; now rewrite set_other]. rewrite set_same. right. destruct C as [(z & F & ->)|[F _]]; congruence.
  - intros q E. destruct (list_eq_dec N.eq_dec p q) as [->|N]; [|left; now rewrite set_other]. rewrite set_same. right. destruct C as [(z & F & ->)|[F ->]]; [congruence|eauto].
Qed.
Lemma touch_safe p w : well_formed w -> p = [] \/ is_dir w (tl p) -> safe touched (fun w => exists x, files w p = Some (with_mtime x (clock w))) (touch p) w.
Proof.
  intros W H. unfold touch. cbn [safe]. intros w1 G1. pose proof (t_wf _ _ G1 W) as W1. cbn [do fst snd]. split; [apply touched_refl|]. cbn [safe].
  intros w2 G2. pose proof (t_wf _ _ G2 W1) as W2.
  assert (T : traverse w2 p = None). { destruct p as [|n p]; auto. apply traverse_parent; auto. destruct H as [H|H]; [discriminate|]. eapply touched_dir; [exact G2|]. eapply touched_dir; eauto. }
  destruct (files w1 p) as [x|] eqn:F1.
  - rewrite (stat_some w1 p x W1 F1). cbn [yes do].
    assert (F2 : exists y, files w2 p = Some y) by (destruct (t_some _ _ G2 p x F1); eauto). destruct F2 as [y F2]. rewrite (stat_some w2 p y W2 F2).
    pose proof (touched_set w2 p (with_mtime y (clock w2)) W2 T (or_introl (ex_intro _ y (conj F2 eq_refl)))) as G. destruct y as [d t|t]; cbn [fst snd safe with_mtime] in *.
    + split; auto. exists (File d t). rewrite set_same. reflexivity.
    + split; auto. exists (Dir t). rewrite set_same. reflexivity.
  - destruct (stat_none w1 p F1) as [e S]. rewrite S. cbn [yes do]. rewrite T.
    destruct (t_none _ _ G2 p F1) as [F2|[t F2]]; rewrite F2; cbn [fst snd safe].
    + split; [apply touched_set; auto|]. exists (File [] 0%Z). rewrite set_same. reflexivity.
    + split; [apply touched_set; auto; left; exists (File [] t); auto|]. exists (File [] 0%Z). rewrite set_same. reflexivity.
Qed.
Theorem C74_concurrent : forall paths w schedule, well_formed w -> (forall p, In p paths -> p = [] \/ is_dir w (tl p)) ->
  let (threads, w') := interleave schedule (map touch paths) w in
  (forall i e, nth_error threads i <> Some (Raise e)) /\
  (forall i p, nth_error paths i = Some p -> nth_error threads i = Some Return -> exists x, files w' p = Some (with_mtime x (clock w))) /\
  (forall q x, files w q = Some x -> exists t, files w' q = Some (with_mtime x t)).
Proof.
  intros paths w schedule W H.
  set (post := fun (p : path) (w : world) => exists x, files w p = Some (with_mtime x (clock w))).
  pose proof (interleave_safe touched touched_trans (map post paths)) as I.
  assert (St : Forall (stable touched) (map post paths)).
  { apply Forall_forall. intros f J. apply in_map_iff in J as (p & <- & _). intros a b G [x E]. exists x. rewrite (t_clock _ _ G). destruct (t_some _ _ G p _ E) as [F|F]; rewrite ?with_mtime_twice in F; exact F. }
  specialize (I St (fun a b _ => touched_refl b) schedule (map touch paths) w (touched_refl w)).
  assert (S0 : Forall2 (fun post f => safe touched post f w) (map post paths) (map touch paths)).
  { clear I St. induction paths as [|p paths IH]; constructor; [apply touch_safe; auto; apply H; now left|]. apply IH. intros p' J. apply H. now right. }
  specialize (I S0). destruct (interleave schedule (map touch paths) w) as [threads w']. destruct I as [G F].
  assert (Nth : forall i f, nth_error threads i = Some f -> exists q, nth_error (map post paths) i = Some q /\ safe touched q f w').
  { clear - F. induction F as [|q f posts threads S F IH]; intros [|i] g E; cbn in *; try discriminate; [injection E as <-; eauto|auto]. }
  split; [intros i e E; destruct (Nth i _ E) as (q & _ & []) |]. split.
  - intros i p Ep Er. destruct (Nth i _ Er) as (q & E & S). pose proof (map_nth_error post _ _ Ep) as E'. assert (q = post p) by congruence. subst q. destruct S as [x S]. exists x. now rewrite <- (t_clock _ _ G).
  - intros q x E. destruct (t_some _ _ G q x E) as [F'|F']; [|eauto]. destruct x as [d t|t]; exists t; exact F'.
Qed.
Print Assumptions C74_concurrent.
Example C74_concurrent_witness : (forall p, In p [[2; 1]%N; [3; 1]%N; [3; 1]%N] -> p = [] \/ is_dir example_world (tl p)) /\
  fst (interleave [0; 1; 2; 2; 1; 0] (map touch [[2; 1]%N; [3; 1]%N; [3; 1]%N]) example_world) = [Return; Return; Return].
Proof. split; [|reflexivity]. intros p [<-|[<-|[<-|[]]]]; right; now exists 0%Z. Qed.

(** ** C75: pushd *)
(** with pushd(t): block -- if the current directory is there and t is a directory, the block runs with t as the current
    directory; afterwards the current directory is the one from before, whatever the block did and however it ended, and
    the outcome is that of the block -- unless the block removed that directory, then FileNotFoundError or NotADirectoryError. *)
Theorem C75_pushd : forall exc t (body : block exc) w t1 t2,
  stat w (cwd w) = inl (Dir t1) -> stat w (resolve w t) = inl (Dir t2) ->
  exists w1 o w2, files w1 = files w /\ clock w1 = clock w /\ cwd w1 = resolve w t /\ body w1 = (o, w2) /\
    ((exists t3, stat w2 (cwd w) = inl (Dir t3)) ->
       exists w', with_pushd t body w = (o, w') /\ cwd w' = cwd w /\ files w' = files w2 /\ clock w' = clock w2) /\
    ((forall t3, stat w2 (cwd w) <> inl (Dir t3)) -> exists e, with_pushd t body w = (OSError e, w2)).
Proof.
  intros exc t body w t1 t2 S1 S2. unfold with_pushd, new_pushd, getcwd. rewrite S1. unfold with_object. cbn [pd_path pd_cwd]. unfold chdir at 1 3. rewrite S2.
  destruct (body (World (files w) (clock w) (resolve w t))) as [o w2] eqn:B. exists (World (files w) (clock w) (resolve w t)), o, w2.
  split; auto. split; auto. split; auto. split; auto. unfold chdir. cbn [resolve]. split.
  - intros [t3 S3]. rewrite S3. eexists. split; [reflexivity|]. auto.
  - intros N. destruct (stat w2 (cwd w)) as [[d m|m]|e]; eauto. now specialize (N m).
Qed.
Print Assumptions C75_pushd.
(** If t is no directory (or the current directory is gone) the block does not run, and nothing has changed. *)
Theorem C75_no_directory : forall exc t w,
  (forall t1, stat w (resolve w t) <> inl (Dir t1)) \/ (forall t1, stat w (cwd w) <> inl (Dir t1)) ->
  exists e, forall body : block exc, with_pushd t body w = (OSError e, w).
Proof.
  intros exc t w H. unfold with_pushd, new_pushd, getcwd. destruct (stat w (cwd w)) as [[d m|m]|e] eqn:S; [eauto| |eauto].
  destruct H as [H|H]; [|now specialize (H m)]. unfold with_object. cbn [pd_path pd_cwd]. unfold chdir at 1.
  destruct (stat w (resolve w t)) as [[d' m'|m']|e'] eqn:S'; [eauto|now specialize (H m')|eauto].
Qed.
Print Assumptions C75_no_directory.
(** Code that changes the current directory with pushd blocks only, however nested, in loops, with exceptions caught or not,
    leaves the current directory as it was, provided directories are not removed. *)
Definition keeps_dirs (w w' : world) : Prop := forall p t, stat w p = inl (Dir t) -> exists t', stat w' p = inl (Dir t').
Inductive disciplined (exc : Type) : block exc -> Prop :=
| DStep (f : block exc) : (forall w, cwd (snd (f w)) = cwd w /\ keeps_dirs w (snd (f w))) -> disciplined exc f
| DSeq f (g : outcome exc -> block exc) : disciplined exc f -> (forall o, disciplined exc (g o)) -> disciplined exc (fun w => let (o, w) := f w in g o w)
| DPushd t f : disciplined exc f -> disciplined exc (with_pushd t f).
Theorem C75_nested : forall exc (f : block exc), disciplined exc f -> forall w, (exists t, stat w (cwd w) = inl (Dir t)) ->
  cwd (snd (f w)) = cwd w /\ keeps_dirs w (snd (f w)).
Proof.
  intros exc f D. induction D as [f H|f g Df IHf Dg IHg|t f Df IHf]; intros w [m Hm].
  - apply H.
  - specialize (IHf w (ex_intro _ m Hm)). destruct (f w) as [o w1]. cbn [snd] in IHf. destruct IHf as [C K]. destruct (K _ _ Hm) as [m' Hm'].
    destruct (IHg o w1) as [C' K']; [rewrite C; eauto|]. split; [congruence|]. intros p t S. destruct (K p t S) as [t' S']. exact (K' p t' S').
  - destruct (stat w (resolve w t)) as [[d t2|t2]|e] eqn:S.
    + destruct (C75_no_directory exc t w) as [e E]; [left; congruence|]. rewrite E. cbn [snd]. split; auto. intros p t' S'. eauto.
    + destruct (C75_pushd exc t f w m t2 Hm S) as (w1 & o & w2 & F1 & C1 & W1 & B & G & _).
      assert (ES : forall v v' p, files v = files v' -> stat v p = stat v' p).
      { intros v v' p E. unfold stat. rewrite E. replace (traverse v p) with (traverse v' p); auto. induction p as [|n p IH]; auto. cbn [traverse]. rewrite IH, E. reflexivity. }
      destruct (IHf w1) as [C2 K2]; [exists t2; rewrite W1, (ES w1 w); auto|]. rewrite B in *. cbn [snd] in *.
      destruct (K2 (cwd w) m) as [t3 S3]; [rewrite (ES w1 w); auto|]. destruct (G (ex_intro _ t3 S3)) as (w' & -> & C' & F' & _). cbn [snd]. split; auto.
      intros p t' S'. rewrite (ES w' w2) by auto. apply (K2 p t'). rewrite (ES w1 w); auto.
    + destruct (C75_no_directory exc t w) as [e' E]; [left; congruence|]. rewrite E. cbn [snd]. split; auto. intros p t' S'. eauto.
Qed.
Print Assumptions C75_nested.
Example C75_witness : exists w', with_pushd (Relative [Down 1%N]) (with_pushd (Relative [Up; Down 1%N]) (fun w => (Exception (cwd w), w))) example_world = (Exception [1%N], w') /\ cwd w' = [] /\
  disciplined (path) (with_pushd (Relative [Down 1%N]) (with_pushd (Relative [Up; Down 1%N]) (fun w => (Exception (cwd w), w)))).
Proof. eexists. split; [reflexivity|]. split; [reflexivity|]. do 2 apply DPushd. apply DStep. intros w. split; auto. intros p t S. eauto. Qed.
(** The directory is the one from when the object was made: made before, a with statement goes elsewhere afterwards; and one
    object used twice, nested, leaves the inner block for the wrong directory. *)
Theorem C75_made_earlier_refuted : exists d w w', new_pushd (Absolute [1%N]) example_world = inl d /\
  (* os.chdir('/1') *) chdir example_world (Absolute [1%N]) = (None, w) /\
  (* with d: pass *) with_object d (fun w => (@Normal unit, w)) w = (Normal, w') /\ cwd w' <> cwd w.
Proof. eexists. eexists. eexists. split; [reflexivity|]. split; [reflexivity|]. split; [reflexivity|]. discriminate. Qed.
Print Assumptions C75_made_earlier_refuted.
Theorem C75_reused_refuted : exists d, new_pushd (Absolute [1%N]) example_world = inl d /\
  exists before after w', with_object d (fun w => let (o, w') := with_object d (fun w => (@Normal (path * path), w)) w in (Exception (cwd w, cwd w'), w')) example_world = (Exception (before, after), w') /\ before <> after.
Proof. eexists. split; [reflexivity|]. eexists. eexists. eexists. split; [reflexivity|]. discriminate. Qed.
Print Assumptions C75_reused_refuted.

(** ** Which exceptions *)
Lemma traverse_error w p e : well_formed w -> traverse w p = Some e ->
  (e = NotADirectoryError /\ exists q, strictly_above q p /\ is_file w q) \/ (e = FileNotFoundError /\ forall q, strictly_above q p -> ~ is_file w q).
Proof.
  intros W. revert e. induction p as [|n p IH]; intros e; cbn [traverse]; [discriminate|]. destruct (traverse w p) as [e'|] eqn:T.
  - intros [= <-]. destruct (IH _ eq_refl) as [(E & q & (m & x & A) & F)|(E & N)].
    + left. split; auto. exists q. split; auto. exists n, (m :: x). cbn. now rewrite <- A.
    + right. split; auto. intros q A F. apply strictly_cases in A. destruct p as [|m p].
      * apply above_root in A. subst q. destruct F as (d & t & F). destruct W as [[t' R] _]. congruence.
      * apply above_cases in A as [->|A].
        { destruct F as (d & t & F). assert (S : stat w (m :: p) = inl (File d t)) by (apply stat_some; auto). unfold stat in S. rewrite T in S. discriminate. }
        apply (N q); auto. now apply strictly_cases.
  - destruct (files w p) as [[d t|t]|] eqn:F; intros [= <-].
    + left. split; auto. exists p. split; [exists n, []; reflexivity|]. now exists d, t.
    + right. split; auto. intros q A (d & t & Fq). apply strictly_cases in A. destruct p as [|m p].
      * apply above_root in A. subst q. congruence.
      * apply above_cases in A as [->|A]; [congruence|]. destruct (proj1 (traverse_dirs w (m :: p)) T q) as [t' D]; [now apply strictly_cases|]. congruence.
Qed.
(** touch says NotADirectoryError if path is below a file, and FileNotFoundError otherwise. *)
Theorem C74_errors : forall p w e w', well_formed w -> run (touch p) w = (Some e, w') ->
  (e = NotADirectoryError /\ exists q, strictly_above q p /\ is_file w q) \/ (e = FileNotFoundError /\ forall q, strictly_above q p -> ~ is_file w q).
Proof.
  intros p w e w' W R. unfold touch in R. cbn [run do] in R. destruct (stat w p) as [x|e'] eqn:S; cbn [yes] in R.
  - cbn [run do] in R. rewrite S in R. destruct x; cbn [run] in R; discriminate.
  - cbn [run do] in R. destruct (traverse w p) as [e''|] eqn:T; cbn [run] in R.
    + injection R as <- <-. now apply traverse_error.
    + unfold stat in S. rewrite T in S. destruct (files w p) eqn:F; [discriminate|]. cbn [run] in R. discriminate.
Qed.
Print Assumptions C74_errors.
Example C74_errors_witness : run (touch [3; 2; 1]%N) example_world = (Some NotADirectoryError, example_world) /\ run (touch [3; 3; 1]%N) example_world = (Some FileNotFoundError, example_world).
Proof. split; reflexivity. Qed.
(** pushd says FileNotFoundError if the current directory is gone; otherwise NotADirectoryError if
    the path is a file or below one, and FileNotFoundError if it is not there. *)
Theorem C75_errors : forall exc t w, well_formed w ->
  (~ is_dir w (cwd w) -> forall body : block exc, with_pushd t body w = (OSError FileNotFoundError, w)) /\
  (is_dir w (cwd w) -> (exists q, above q (resolve w t) /\ is_file w q) -> forall body : block exc, with_pushd t body w = (OSError NotADirectoryError, w)) /\
  (is_dir w (cwd w) -> files w (resolve w t) = None -> (forall q, above q (resolve w t) -> ~ is_file w q) -> forall body : block exc, with_pushd t body w = (OSError FileNotFoundError, w)).
Proof.
  intros exc t w W. unfold with_pushd, new_pushd, getcwd. split; [|split].
  - intros N body. destruct (stat w (cwd w)) as [[d m|m]|e] eqn:S; auto. exfalso. apply N. exists m. now apply stat_files.
  - intros [m C] (q & A & F) body. rewrite (stat_some _ _ _ W C). unfold with_object. cbn [pd_path pd_cwd]. unfold chdir at 1.
    destruct F as (d & t' & F). destruct (stat w (resolve w t)) as [[d' m'|m']|e'] eqn:S; [auto| |].
    + exfalso. apply stat_files in S. destruct (resolve w t) as [|n p]; [apply above_root in A; subst; congruence|]. apply above_cases in A as [->|A]; [congruence|].
      destruct (ancestors w n p W) with (q := q) as [t'' E]; congruence.
    + unfold stat in S. destruct (traverse w (resolve w t)) as [e''|] eqn:T.
      * injection S as <-. destruct (traverse_error w _ _ W T) as [(-> & _)|(_ & N)]; auto. exfalso. destruct (resolve w t) as [|n p]; [discriminate|].
        apply above_cases in A as [->|A]; [|apply (N q); [now apply strictly_cases|now exists d, t']].
        assert (S : stat w (n :: p) = inl (File d t')) by (apply stat_some; auto). unfold stat in S. rewrite T in S. discriminate.
      * destruct (files w (resolve w t)) eqn:Fr; [discriminate|]. exfalso. destruct (resolve w t) as [|n p]; [apply above_root in A; subst; congruence|]. apply above_cases in A as [->|A]; [congruence|].
        destruct (proj1 (traverse_dirs w (n :: p)) T q) as [t'' D]; [now apply strictly_cases|]. congruence.
  - intros [m C] Fr N body. rewrite (stat_some _ _ _ W C). unfold with_object. cbn [pd_path pd_cwd]. unfold chdir at 1. unfold stat.
    destruct (traverse w (resolve w t)) as [e''|] eqn:T; [|now rewrite Fr]. destruct (traverse_error w _ _ W T) as [(_ & q & A & F)|(-> & _)]; auto.
    exfalso. apply (N q); auto. destruct A as (a & x & A). exists (a :: x). exact A.
Qed.
Print Assumptions C75_errors.
Example C75_errors_witness : with_pushd (exc := unit) (Absolute [2; 1]%N) (fun w => (Normal, w)) example_world = (OSError NotADirectoryError, example_world) /\
  with_pushd (exc := unit) (Relative [Down 3%N]) (fun w => (Normal, w)) example_world = (OSError FileNotFoundError, example_world).
Proof. split; reflexivity. Qed.
