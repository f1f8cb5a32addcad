(** Property C122: safe_mkdir, safe_unlink and touch may be killed anywhere, and repeated. *)
From Verif Require Import FsModel FsSpec FsSpec2 FsProof FsProps.

Lemma do_wf c w : well_formed w -> well_formed (snd (do c w)).
Proof.
  intros W. destruct c; cbn [do snd]; auto.
  - destruct (stat w p) as [[d t|t]|e] eqn:S; auto. apply wf_remove; auto. apply stat_files in S. now exists d, t.
  - destruct (traverse w p) eqn:T; auto. destruct (files w p) eqn:F; auto. cbn [snd]. destruct p as [|n p]; [destruct W as [[t R] _]; congruence|].
    apply wf_set; auto; [discriminate|]. left. intros m. destruct (files w (m :: n :: p)) eqn:Q; auto. destruct W as [_ W]. destruct (W m (n :: p)) as [t E]; congruence.
  - destruct (stat w p) as [x|e] eqn:S; auto. pose proof (stat_files w p _ S) as F.
    assert (T : traverse w p = None) by (unfold stat in S; destruct (traverse w p); [discriminate|auto]).
    pose proof (t_wf _ _ (touched_set w p (with_mtime x (clock w)) W T (or_introl (ex_intro _ x (conj F eq_refl)))) W). destruct x; auto.
  - destruct (traverse w p) eqn:T; auto. destruct (files w p) as [[d t|t]|] eqn:F; auto; cbn [snd].
    + destruct p as [|n p]; [destruct W as [[t' R] _]; congruence|]. apply wf_set; auto; [discriminate|]. left. intros m. destruct (files w (m :: n :: p)) eqn:Q; auto. destruct W as [_ W]. destruct (W m (n :: p)) as [t' E]; congruence.
    + apply (t_wf _ _ (touched_set w p _ W T (or_intror (conj F eq_refl))) W).
Qed.
Lemma killed_wf f : forall n w, well_formed w -> well_formed (killed n f w).
Proof.
  induction f as [|e|c k IH]; intros [|n] w W; cbn [killed]; auto. pose proof (do_wf c w W). destruct (do c w) as [a w'] eqn:D. apply IH. auto.
Qed.
(** what holds of every call of its own, among others, holds of the world left by a kill *)
Inductive chain (w : world) : list (world * world) -> world -> Prop :=
| ch_nil : chain w [] w
| ch_snoc tr w1 w2 : chain w tr w1 -> chain w (tr ++ [(w1, w2)]) w2.
Lemma chain_cons w w1 tr w2 : chain w1 tr w2 -> chain w ((w, w1) :: tr) w2.
Proof.
  induction 1; [exact (ch_snoc w [] w w1 (ch_nil w))|]. exact (ch_snoc w ((w, w1) :: tr) _ _ IHchain).
Qed.
Lemma killed_chain f : forall n w, exists tr tr' o, among_others f (tr ++ tr') o /\ chain w tr (killed n f w).
Proof.
  induction f as [|e|c k IH]; intros n w.
  - exists [], [], None. split; [constructor|]. destruct n; constructor.
  - exists [], [], (Some e). split; [constructor|]. destruct n; constructor.
  - destruct (do c w) as [a w'] eqn:D. destruct n as [|n].
    + destruct (IH a 0 w') as (tr & tr' & o & A & _). exists [], ((w, w') :: tr ++ tr'), o. split; [econstructor; eauto|constructor].
    + destruct (IH a n w') as (tr & tr' & o & A & C). exists ((w, w') :: tr), tr', o. split; [cbn; econstructor; eauto|]. cbn [killed]. rewrite D. now apply chain_cons.
Qed.
Lemma killed_induct f (P : world -> Prop) w n : P w -> (forall tr o w1 w2, among_others f tr o -> In (w1, w2) tr -> P w1 -> P w2) -> P (killed n f w).
Proof.
  intros P0 S. destruct (killed_chain f n w) as (tr & tr' & o & A & C). specialize (fun w1 w2 => S _ _ w1 w2 A). clear A.
  assert (I : forall x, In x tr -> In x (tr ++ tr')) by (intros; apply in_or_app; auto). revert S I. generalize (tr ++ tr') as all. intros all S.
  induction C as [|tr w1 w2 C IH]; intros I; auto. apply (S w1 w2); [apply I, in_or_app; right; now left|]. apply IH. intros x X. apply I, in_or_app. now left.
Qed.

(** ** safe_mkdir *)
(** what is in the world: as in w, except that directories have been made where nothing was, at p or above it, and a file at p may be gone *)
Record half (p : path) (w w1 : world) : Prop := {
  h_wf : well_formed w1;
  h_keep : forall q, ~ above q p \/ is_dir w q -> files w1 q = files w q;
  h_above : forall q, above q p -> files w1 q = files w q \/ is_dir w1 q \/ q = p /\ files w1 q = None }.
Lemma half_refl p w : well_formed w -> half p w w. Proof. split; auto. Qed.
Lemma half_time p w w1 t : half p w w1 -> half p w (at_time t w1).
Proof. intros [A B C]. split; auto. Qed.
Lemma half_killed p w w1 n : half p w w1 -> half p w (killed n (safe_mkdir p) w1).
Proof.
  intros H. assert (K : (forall q, ~ above q p \/ is_dir w q -> files (killed n (safe_mkdir p) w1) q = files w q) /\
    (forall q, above q p -> files (killed n (safe_mkdir p) w1) q = files w q \/ is_dir (killed n (safe_mkdir p) w1) q \/ q = p /\ files (killed n (safe_mkdir p) w1) q = None)).
  { apply killed_induct with (P := fun v => (forall q, ~ above q p \/ is_dir w q -> files v q = files w q) /\ (forall q, above q p -> files v q = files w q \/ is_dir v q \/ q = p /\ files v q = None)); [split; apply H|].
    intros tr o a b A I (K1 & K2). destruct (C72_only p tr o A a b I) as [->|[(r & Ar & N & ->)|(F & ->)]]; [auto| |].
    - split.
      + intros q [Q|Q]; (destruct (list_eq_dec N.eq_dec r q) as [<-|Nq]; [|rewrite set_other by auto; auto]); [tauto|].
        exfalso. destruct Q as [t Q]. rewrite (K1 r) in N by (right; now exists t). congruence.
      + intros q Q. destruct (list_eq_dec N.eq_dec r q) as [<-|Nq]; [right; left; exists (clock a); apply set_same|].
        unfold is_dir. rewrite set_other by auto. apply K2; auto.
    - split.
      + intros q [Q|Q]; (destruct (list_eq_dec N.eq_dec p q) as [<-|Nq]; [|rewrite set_other by auto; auto]); [destruct Q; apply above_refl|].
        exfalso. destruct F as (d & t & F). destruct Q as [t' Q]. rewrite (K1 p) in F by (right; now exists t'). congruence.
      + intros q Q. destruct (list_eq_dec N.eq_dec p q) as [<-|Nq]; [right; right; split; auto; apply set_same|]. unfold is_dir. rewrite set_other by auto. apply K2; auto. }
  split; [apply killed_wf, H|apply K|apply K].
Qed.
Lemma half_attempts p w l : forall w1, half p w w1 -> half p w (attempts l (safe_mkdir p) w1).
Proof. induction l as [|[n t] l IH]; intros w1 H; cbn [attempts]; auto. apply IH, half_killed, half_time, H. Qed.

(** However often safe_mkdir(path) is killed, and wherever, before it is run to the end: nothing has changed meanwhile but that a file at path may be
    gone and that directories have been made on the way to path; and then it succeeds, as if it had never been killed. *)
Theorem C122_safe_mkdir p w l t : well_formed w -> (forall q, strictly_above q p -> ~ is_file w q) ->
  let w1 := attempts l (safe_mkdir p) w in
  well_formed w1 /\
  (forall q, ~ above q p \/ is_dir w q -> files w1 q = files w q) /\
  (forall q, above q p -> files w1 q = files w q \/ is_dir w1 q \/ q = p /\ files w1 q = None) /\
  exists w2, run (safe_mkdir p) (at_time t w1) = (None, w2) /\ well_formed w2 /\ (forall q, above q p -> is_dir w2 q) /\
    (forall q, ~ above q p \/ is_dir w q -> files w2 q = files w q) /\ (forall q t', ~ is_dir w1 q -> files w2 q = Some (Dir t') -> t' = t).
Proof.
  intros W NF w1. assert (H : half p w w1) by (apply half_attempts, half_refl, W). split; [apply H|]. split; [apply H|]. split; [apply H|].
  assert (W1 : well_formed (at_time t w1)) by apply H.
  destruct (C72_alone p (at_time t w1) W1) as (_ & R). destruct R as (w2 & R & W2 & D & K & Cl & Cw).
  { intros q S (d & t' & F). cbn [files at_time] in F. assert (A : above q p) by (destruct S as (n & x & ->); now exists (n :: x)).
    destruct (h_above _ _ _ H q A) as [E|[[t'' E]|[-> E]]]; [|congruence|congruence]. apply (NF q S). exists d, t'. congruence. }
  exists w2. split; auto. split; auto. split; auto. split.
  - intros q Q. rewrite K.
    + apply (h_keep _ _ _ H q Q).
    + destruct Q as [Q|[t' Q]]; auto. right. exists t'. cbn [files at_time]. rewrite (h_keep _ _ _ H q); [auto|right; now exists t'].
  - intros q t' ND E.
    assert (G : forall f v, (forall tr o, among_others f tr o -> forall a b, In (a, b) tr -> b = a \/ (exists q, files a q = None /\ b = set_file a q (Some (Dir (clock a)))) \/ (exists q, b = set_file a q None)) ->
              (forall q s, files v q = Some (Dir s) -> files (at_time t w1) q = Some (Dir s) \/ s = t) /\ clock v = t -> forall q s, files (snd (run f v)) q = Some (Dir s) -> files (at_time t w1) q = Some (Dir s) \/ s = t).
    { clear. induction f as [|e|c k IH]; intros v S (I & C); cbn [run snd]; auto. destruct (do c v) as [a v'] eqn:Do. apply IH.
      - intros tr o A x y J. exact (S _ _ (OCall c k v a v' tr o Do A) x y (or_intror J)).
      - assert (AO : forall f, exists tr o, among_others f tr o).
        { clear. induction f as [|e|c k IH]; [exists [], None; constructor|exists [], (Some e); constructor|].
          destruct (do c (World (fun _ => None) 0 [])) as [a w'] eqn:D. destruct (IH a) as (tr & o & A). eexists _, o. econstructor; eauto. }
        destruct (AO (k a)) as (tr & o & A). destruct (S _ _ (OCall c k v a v' tr o Do A) v v' (or_introl eq_refl)) as [->|[(r & _ & ->)|(r & ->)]]; [auto| |].
        + split; [|exact C]. intros q s E. destruct (list_eq_dec N.eq_dec r q) as [<-|Nq]; [rewrite set_same in E; injection E as <-; right; exact C|]. rewrite set_other in E by auto. auto.
        + split; [|exact C]. intros q s E. destruct (list_eq_dec N.eq_dec r q) as [<-|Nq]; [rewrite set_same in E; discriminate|]. rewrite set_other in E by auto. auto. }
    destruct (G (safe_mkdir p) (at_time t w1)) with (q := q) (s := t') as [E'|E'].
    + intros tr o A a b I. destruct (C72_only p tr o A a b I) as [->|[(r & _ & N & ->)|(F & ->)]]; eauto.
    + split; auto.
    + rewrite R. exact E.
    + destruct ND. now exists t'.
    + exact E'.
Qed.
Lemma killed_call c k w n : snd (do c w) = w -> (forall n, killed n (k (fst (do c w))) w = w) -> killed n (Call c k) w = w.
Proof. intros D K. destruct n as [|n]; auto. cbn [killed]. destruct (do c w) as [a w']. cbn [fst snd] in *. subst w'. apply K. Qed.
Lemma makedirs_unchanged p : forall w ret exc, well_formed w -> (exists q, strictly_above q p /\ is_file w q) -> (forall n, killed n (exc NotADirectoryError) w = w) -> forall n, killed n (makedirs p ret exc) w = w.
Proof.
  induction p as [|m p IH]; intros w ret exc W (q & S & F) K n; [destruct S as (m & x & E); discriminate|]. cbn [makedirs]. apply killed_call; [reflexivity|]. clear n. intros n. cbn [do fst].
  assert (M : exists e, traverse w (m :: p) = Some e).
  { destruct (traverse w (m :: p)) eqn:T; [eauto|]. destruct (proj1 (traverse_dirs w (m :: p)) T q S) as [t E]. destruct F as (d & t' & F). congruence. }
  assert (MK : traverse w (m :: p) = Some NotADirectoryError -> forall n, killed n (mkdir_exist_ok (m :: p) ret exc) w = w).
  { intros T n'. unfold mkdir_exist_ok. apply killed_call; cbn [do]; rewrite T; [reflexivity|]. cbn [fst]. clear n'. intros n'. apply killed_call; [reflexivity|]. intros n''. cbn [do fst]. unfold stat. rewrite T. cbn [yes]. apply K. }
  assert (X : (exists q, strictly_above q p /\ is_file w q) \/ is_file w p).
  { apply strictly_cases in S. destruct p as [|m' p]; [right; destruct S as (x & E); destruct x; [now rewrite E|discriminate]|]. apply above_cases in S as [->|S]; auto. left. exists q. split; auto. now apply strictly_cases. }
  destruct X as [X|X].
  - assert (T : traverse w p = Some NotADirectoryError -> traverse w (m :: p) = Some NotADirectoryError) by (intros T; cbn; now rewrite T).
    destruct (stat w p) as [x|e] eqn:St.
    + exfalso. apply stat_files in St. destruct X as (q' & S' & (d & t & F')). destruct p as [|m' p]; [destruct S' as (? & ? & E); discriminate|]. apply strictly_cases in S'. destruct (ancestors w m' p W) with (q := q') as [t' E]; congruence.
    + cbn [yes]. apply IH; auto.
  - destruct X as (d & t & X). rewrite (stat_some w p _ W X). cbn [yes]. apply MK. cbn. rewrite (traverse_exists w p W) by congruence. now rewrite X.
Qed.
(** If a file is in the way above path, nothing is ever changed. *)
Theorem C122_safe_mkdir_blocked p w l : well_formed w -> (exists q, strictly_above q p /\ is_file w q) -> files (attempts l (safe_mkdir p) w) = files w.
Proof.
  intros W B. enough (G : forall w1, files w1 = files w -> files (attempts l (safe_mkdir p) w1) = files w) by (now apply G).
  induction l as [|[n t] l IH]; intros w1 E; cbn [attempts]; auto. apply IH.
  set (v := at_time t w1). assert (Ev : files v = files w) by exact E. assert (Wv : well_formed v) by (unfold well_formed, is_dir in *; now rewrite Ev).
  assert (Bv : exists q, strictly_above q p /\ is_file v q) by (unfold is_file in *; now rewrite Ev). clearbody v.
  replace (killed n (safe_mkdir p) v) with v; auto. symmetry. unfold safe_mkdir. apply killed_call; [reflexivity|]. clear n. intros n. cbn [do fst].
  replace (yes _) with false; [apply makedirs_unchanged; auto; intros [|?]; reflexivity|].
  symmetry. destruct (stat v p) as [[d t'|t']|e] eqn:S; auto. exfalso. apply stat_files in S. destruct Bv as (q & A & (d' & t'' & F)). destruct p as [|m p]; [destruct A as (m & x & X); discriminate|].
  apply strictly_cases in A. destruct (ancestors v m p Wv) with (q := q) as [s X]; congruence.
Qed.

(** ** safe_unlink *)
(** However often safe_unlink(path) is killed: either nothing has changed, or only the file at path is gone; and then it succeeds. *)
Theorem C122_safe_unlink p w l t : well_formed w ->
  let w1 := attempts l (safe_unlink p) w in
  well_formed w1 /\ (forall q, q <> p -> files w1 q = files w q) /\ (files w1 p = files w p \/ is_file w p /\ files w1 p = None) /\
  exists w2, run (safe_unlink p) (at_time t w1) = (None, w2) /\ well_formed w2 /\ (forall q, q <> p -> files w2 q = files w q) /\
    (is_file w p -> files w2 p = None) /\ (~ is_file w p -> files w2 p = files w p).
Proof.
  intros W w1. set (P := fun v => (forall q, q <> p -> files v q = files w q) /\ (files v p = files w p \/ is_file w p /\ files v p = None)).
  assert (H : well_formed w1 /\ P w1).
  { subst w1. enough (G : forall v, well_formed v -> P v -> well_formed (attempts l (safe_unlink p) v) /\ P (attempts l (safe_unlink p) v)) by (apply G; unfold P; auto).
    induction l as [|[n s] l IH]; intros v Wv Pv; cbn [attempts]; auto. apply IH; [apply killed_wf; exact Wv|]. apply killed_induct; [exact Pv|].
    intros tr o a b A I (K1 & K2). destruct (C73_only p tr o A) as (O & _). destruct (O a b I) as [->|(F & ->)]; [split; auto|]. split.
    - intros q Nq. rewrite set_other by auto. auto.
    - right. split; [|apply set_same]. destruct F as (d & t' & F). destruct K2 as [K2|[_ K2]]; [|congruence]. exists d, t'. congruence. }
  destruct H as (W1 & K1 & K2). split; auto. split; auto. split; auto.
  destruct (C73_alone p (at_time t w1) W1) as (w2 & R & W2 & A & B & C & _). exists w2. split; auto. split; auto. split; [intros q Nq; rewrite C by auto; apply K1; auto|]. split.
  - intros F. destruct K2 as [K2|[_ K2]].
    + apply A. unfold is_file in *. cbn [files at_time]. now rewrite K2.
    + assert (NF : ~ is_file (at_time t w1) p) by (intros (d & t' & X); cbn [files at_time] in X; congruence). rewrite (B NF). exact K2.
  - intros NF. destruct K2 as [K2|[K2 _]]; [|tauto]. assert (NF' : ~ is_file (at_time t w1) p) by (unfold is_file in *; cbn [files at_time]; now rewrite K2). rewrite (B NF'). exact K2.
Qed.

(** ** touch *)
(** However often touch(path) is killed: contents are kept, and where nothing was there is nothing or an empty file; and then it succeeds
    (if there is a directory for it), and the time is that of the last, complete run. *)
Theorem C122_touch p w l t : well_formed w ->
  let w1 := attempts l (touch p) w in
  well_formed w1 /\ (forall q, q <> p -> files w1 q = files w q) /\
  (forall x, files w p = Some x -> exists s, files w1 p = Some (with_mtime x s)) /\
  (files w p = None -> files w1 p = None \/ exists s, files w1 p = Some (File [] s)) /\
  (files w p <> None \/ is_dir w (tl p) -> exists w2, run (touch p) (at_time t w1) = (None, w2) /\ well_formed w2 /\ (forall q, q <> p -> files w2 q = files w q) /\
     (forall x, files w p = Some x -> files w2 p = Some (with_mtime x t)) /\ (files w p = None -> files w2 p = Some (File [] t))) /\
  (files w p = None -> ~ is_dir w (tl p) -> files w1 = files w).
Proof.
  intros W w1.
  set (P := fun v => (forall q, q <> p -> files v q = files w q) /\ (forall x, files w p = Some x -> exists s, files v p = Some (with_mtime x s)) /\ (files w p = None -> files v p = None \/ exists s, files v p = Some (File [] s))).
  assert (T : forall v c, well_formed v -> P v -> (c = Exists p \/ c = (if yes (fst (do (Exists p) v)) then Utime p else Open_wb p)) -> P (snd (do c v))).
  { intros v c Wv (P1 & P2 & P3) [->| ->]; [cbn [do snd]; split; auto|]. cbn [do fst].
    destruct (stat v p) as [x|e] eqn:S; cbn [yes do].
    - rewrite S. apply stat_files in S. assert (X : P (set_file v p (Some (with_mtime x (clock v))))).
      { split; [intros q Nq; rewrite set_other by auto; auto|]. rewrite set_same. split.
        - intros y Y. destruct (P2 y Y) as (s & E). rewrite S in E. injection E as ->. exists (clock v). now rewrite with_mtime_twice.
        - intros N. destruct (P3 N) as [E|(s & E)]; [congruence|]. right. exists (clock v). rewrite S in E. injection E as ->. reflexivity. }
      destruct x; exact X.
    - destruct (traverse v p) eqn:Tr; [split; auto|]. destruct (files v p) as [x|] eqn:F; [rewrite (stat_some v p x Wv F) in S; discriminate|].
      cbn [snd]. split; [intros q Nq; rewrite set_other by auto; auto|]. rewrite set_same. split.
      + intros y Y. destruct (P2 y Y) as (s & E). congruence.
      + intros _. right. eauto. }
  assert (H : well_formed w1 /\ P w1).
  { subst w1. enough (G : forall v, well_formed v -> P v -> well_formed (attempts l (touch p) v) /\ P (attempts l (touch p) v)).
    { apply G; auto. unfold P. split; auto. split; [|auto]. intros x X. exists (match x with File _ s => s | Dir s => s end). rewrite X. now destruct x. }
    induction l as [|[n s] l IH]; intros v Wv Pv; cbn [attempts]; auto. apply IH; [apply killed_wf; exact Wv|].
    set (v' := at_time s v). assert (Wv' : well_formed v') by exact Wv. assert (Pv' : P v') by exact Pv. clearbody v'. unfold touch. destruct n as [|[|n]]; [exact Pv'|exact Pv'|].
    pose proof (T v' _ Wv' Pv' (or_intror eq_refl)) as X. cbn [killed]. change (do (Exists p) v') with (fst (do (Exists p) v'), v') at 1. cbv iota beta.
    destruct (do (if yes (fst (do (Exists p) v')) then Utime p else Open_wb p) v') as [a v''] eqn:D. cbn [snd] in X. destruct n; [exact X|]. destruct a; exact X. }
  destruct H as (W1 & K1 & K2 & K3). split; auto. split; auto. split; auto. split; auto. split.
  - intros H. destruct (C74_alone p (at_time t w1) W1) as (_ & R).
    assert (H1 : files (at_time t w1) p <> None \/ is_dir (at_time t w1) (tl p)).
    { cbn [files at_time]. destruct (files w p) as [x|] eqn:F; [left; destruct (K2 x eq_refl) as (s & ->); discriminate|]. destruct H as [H|(s & H)]; [congruence|].
      right. destruct p as [|m p]; [destruct W1 as [D _]; exact D|]. exists s. cbn [files at_time tl] in *. rewrite K1; auto. intros E. apply (f_equal (@length N)) in E. cbn in E. lia. }
    destruct (R H1) as (w2 & R2 & W2 & A & B & C & _). exists w2. split; auto. split; auto. split; [intros q Nq; rewrite C by auto; apply K1; auto|]. split.
    + intros x X. destruct (K2 x X) as (s & E). rewrite (A (with_mtime x s) E). now rewrite with_mtime_twice.
    + intros X. destruct (K3 X) as [E|(s & E)]; [apply (B E)|]. exact (A (File [] s) E).
  - intros N ND. subst w1. enough (G : forall v, files v = files w -> files (attempts l (touch p) v) = files w) by (now apply G). clear K1 K2 K3 W1.
    induction l as [|[n s] l IH]; intros v E; cbn [attempts]; auto. apply IH. set (v' := at_time s v). assert (E' : files v' = files w) by exact E. clearbody v'.
    assert (Wv : well_formed v') by (unfold well_formed, is_dir in *; now rewrite E').
    replace (killed n (touch p) v') with v'; auto. symmetry. unfold touch. apply killed_call; [reflexivity|]. clear n. intros n. cbn [do fst].
    destruct (stat_none v' p) as [e S]; [now rewrite E'|]. rewrite S. cbn [yes].
    assert (TR : exists e, traverse v' p = Some e).
    { destruct (traverse v' p) eqn:Tr; [eauto|]. destruct p as [|m p]; [destruct W as [[z Z] _]; congruence|]. destruct ND. cbn [tl]. destruct (proj1 (traverse_dirs v' (m :: p)) Tr p) as [z Z]; [apply strictly_cases, above_refl|]. exists z. congruence. }
    destruct TR as [e' Tr]. apply killed_call; cbn [do]; rewrite Tr; [reflexivity|]. intros [|?]; reflexivity.
Qed.

(** ** file_size and file_mtime_ns see what touch and safe_unlink have done *)
Theorem C122_observers dir_size p w w' : well_formed w ->
  (run (touch p) w = (None, w') -> file_mtime_ns w' p = inl (clock w) /\
     file_size dir_size w' p = (if files w p then file_size dir_size w p else inl 0%Z)) /\
  (run (safe_unlink p) w = (None, w') -> is_file w p -> exists e, file_size dir_size w' p = inr e /\ file_mtime_ns w' p = inr e) /\
  (run (safe_mkdir p) w = (None, w') -> exists t, file_mtime_ns w' p = inl t /\ (is_dir w p -> file_mtime_ns w p = inl t)) /\
  (forall d t, files w p = Some (File d t) -> file_size dir_size w p = inl (Z.of_nat (length d)) /\ file_mtime_ns w p = inl t) /\
  (files w p = None -> exists e, file_size dir_size w p = inr e /\ file_mtime_ns w p = inr e).
Proof.
  intros W. unfold file_mtime_ns, file_size. split; [|split; [|split; [|split]]].
  - intros R. destruct (C74_alone p w W) as (R1 & R2). assert (H : files w p <> None \/ is_dir w (tl p)).
    { destruct (files w p) eqn:F; [left; congruence|]. right. destruct (kind w (tl p)) as [[D|(d & t & D)]|D]; auto; (destruct R1 as [e E]; [auto|intros (t' & X); congruence|congruence]). }
    destruct (R2 H) as (w2 & R3 & W2 & A & B & _). rewrite R in R3. injection R3 as <-. destruct (files w p) as [x|] eqn:F.
    + rewrite (stat_some w' p _ W2 (A x eq_refl)), (stat_some w p x W F). destruct x; auto.
    + rewrite (stat_some w' p _ W2 (B eq_refl)). auto.
  - intros R F. destruct (C73_alone p w W) as (w2 & R2 & W2 & A & _). rewrite R in R2. injection R2 as <-. destruct (stat_none w' p (A F)) as [e ->]. eauto.
  - intros R. destruct (C72_alone p w W) as (R1 & R2).
    destruct R2 as (w2 & R3 & W2 & A & B & _).
    { intros q S F. rewrite R1 in R; [discriminate|eauto]. }
    rewrite R in R3. injection R3 as <-. destruct (A p (above_refl p)) as [t E]. exists t. rewrite (stat_some w' p _ W2 E). split; auto. intros D. rewrite (B p (or_intror D)) in E. now rewrite (stat_some w p _ W E).
  - intros d t F. rewrite (stat_some w p _ W F). auto.
  - intros F. destruct (stat_none w p F) as [e ->]. eauto.
Qed.

(** safe_mkdir killed after its second call: the file is gone and there is no directory yet; then killed on its way, then it succeeds *)
Example C122_witness : well_formed example_world /\ (forall q, strictly_above q [2; 1]%N -> ~ is_file example_world q) /\
  files (attempts [(2, 3%Z)] (safe_mkdir [2; 1]%N) example_world) [2; 1]%N = None /\ is_file example_world [2; 1]%N /\
  files (snd (run (safe_mkdir [2; 1]%N) (at_time 8 (attempts [(2, 3%Z); (1, 4%Z); (2, 5%Z)] (safe_mkdir [2; 1]%N) example_world)))) [2; 1]%N = Some (Dir 8) /\
  files (snd (run (touch [2; 1]%N) (at_time 8 (attempts [(1, 4%Z); (2, 5%Z)] (touch [2; 1]%N) example_world)))) [2; 1]%N = Some (File [7%N] 8).
Proof.
  split; [apply example_wf|]. split; [|split; [vm_compute; reflexivity|split; [now exists [7%N], 5%Z|split; vm_compute; reflexivity]]].
  intros q S. apply strictly_cases, above_cases in S. intros (d & t & F). destruct S as [->|S]; [discriminate|]. destruct S as (x & E). destruct x; [cbn in E; subst q; discriminate F|discriminate E].
Qed.
Print Assumptions C122_safe_mkdir. Print Assumptions C122_safe_mkdir_blocked. Print Assumptions C122_safe_unlink. Print Assumptions C122_touch. Print Assumptions C122_observers.
