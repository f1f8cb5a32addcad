From Verif Require Import PyBase PyBaseProof HeapModel HeapSpec HeapProof SchedModel SchedSpec SchedProof SchedProof2 SexnModel SexnSpec.

Lemma in_with_crit p : in_with p = crit p.
Proof. destruct p; reflexivity. Qed.
Lemma plain_app l m : plain (l ++ m) = plain l ++ plain m.
Proof. apply flat_map_app. Qed.
Lemma plain_map l : plain (map XA l) = l.
Proof. induction l as [|a l IH]; simpl; [|rewrite IH]; auto. Qed.
Lemma xof_app t l m : xof_thread t (l ++ m) = xof_thread t l ++ xof_thread t m.
Proof. apply flat_map_app. Qed.
Lemma xof_map t l : xof_thread t (map XA l) = map XA (of_thread t l).
Proof.
  induction l as [|a l IH]; [reflexivity|]. change (a :: l) with ([a] ++ l) at 2. rewrite of_thread_app, map_app, <- IH. cbn [xof_thread map flat_map]. reflexivity.
Qed.
Lemma added_app s s' acts : s_log s' = s_log s ++ acts -> added s s' = acts.
Proof. intros E. unfold added. rewrite E, skipn_app, skipn_all, Nat.sub_diag. reflexivity. Qed.

(** the state in which only thread [t] is inside a call, and its history is [cur] *)
Definition alone (s : sstate) (t : tid) (cur : list act) : sstate :=
  mkS (s_heap s) (s_counter s) (s_lock s) (s_flag s) (s_clock s) (fun u => if u =? t then s_pc s t else Idle) cur.
Lemma alone_tstep s t cur : exists acts,
  s_log (tstep s t) = s_log s ++ acts /\ s_log (tstep (alone s t cur) t) = cur ++ acts /\
  s_pc (tstep (alone s t cur) t) t = s_pc (tstep s t) t /\ forallb (mine t) acts = true /\
  (forall u, u <> t -> s_pc (tstep s t) u = s_pc s u \/ s_pc (tstep s t) u = woken_pc (s_pc s u)).
Proof.
  assert (R : (t =? t) = true) by apply Nat.eqb_refl.
  assert (P : s_pc (alone s t cur) t = s_pc s t) by (simpl; rewrite R; auto).
  assert (N : exists acts, s_log s = s_log s ++ acts /\ s_log (alone s t cur) = cur ++ acts /\ s_pc (alone s t cur) t = s_pc s t /\ forallb (mine t) acts = true /\
     (forall u, u <> t -> s_pc s u = s_pc s u \/ s_pc s u = woken_pc (s_pc s u))).
  { exists []. rewrite !app_nil_r. repeat split; auto. }
  assert (GO : forall s1 s2 p a, s_log s1 = s_log s -> s_log s2 = cur -> forallb (mine t) a = true ->
     (forall u, s_pc s1 u = s_pc s u \/ s_pc s1 u = woken_pc (s_pc s u)) ->
     exists acts, s_log (go s1 t p a) = s_log s ++ acts /\ s_log (go s2 t p a) = cur ++ acts /\
     s_pc (go s2 t p a) t = s_pc (go s1 t p a) t /\ forallb (mine t) acts = true /\
     (forall u, u <> t -> s_pc (go s1 t p a) u = s_pc s u \/ s_pc (go s1 t p a) u = woken_pc (s_pc s u))).
  { intros s1 s2 p a E1 E2 M O. exists a. cbn [go s_log s_pc]. rewrite E1, E2, !setpc_same. repeat split; auto.
    intros u Hu. rewrite !setpc_other by auto. apply O. }
  unfold tstep. rewrite P. 
  destruct (s_pc s t) eqn:E; try (rewrite ?E; exact N);
  try (unfold acquire, release; cbn [alone s_lock s_heap s_clock s_flag s_counter]; repeat match goal with |- context [match ?x with _ => _ end] => destruct x eqn:? end; try (rewrite ?E; exact N);
       apply GO; auto; simpl; rewrite ?R; auto).
Qed.
Definition mover (m : move) : option tid := match m with MCall t _ | MStep t | MEarly t => Some t | MTick _ => None end.
Lemma alone_sstep s m t cur : mover m = Some t -> exists acts,
  s_log (sstep s m) = s_log s ++ acts /\ s_log (sstep (alone s t cur) m) = cur ++ acts /\
  s_pc (sstep (alone s t cur) m) t = s_pc (sstep s m) t /\ forallb (mine t) acts = true /\
  (forall u, u <> t -> s_pc (sstep s m) u = s_pc s u \/ s_pc (sstep s m) u = woken_pc (s_pc s u)).
Proof.
  assert (R : (t =? t) = true) by apply Nat.eqb_refl.
  destruct m as [v c|v|v|d]; intros E; inversion E; subst v; clear E; [|apply alone_tstep|];
    cbn [sstep]; cbn [alone s_pc]; rewrite R; destruct (s_pc s t) eqn:E;
    try (exists []; cbn [alone s_log s_pc]; rewrite !app_nil_r, ?R, ?E; repeat split; auto; fail);
    try (eexists; cbn [go s_log s_pc alone]; rewrite !setpc_same; repeat split; eauto; [simpl; rewrite ?R; auto | intros u Hu; left; apply setpc_other; auto]).
  exists []. cbn [go s_log s_pc alone]. rewrite !setpc_same. repeat split; auto. intros u Hu; left; apply setpc_other; auto.
Qed.
Lemma of_thread_other t u cur : of_thread t cur = cur -> u <> t -> of_thread u cur = [].
Proof.
  intros E Hu. apply (of_thread_mine t); auto. rewrite <- E. clear E. induction cur as [|a cur IH]; simpl; auto.
  match goal with |- context [if ?b then _ else _] => destruct b eqn:B end; auto. simpl. rewrite IH, andb_true_r. destruct a; simpl; auto; discriminate.
Qed.
Lemma of_thread_idem t l : of_thread t (of_thread t l) = of_thread t l.
Proof.
  induction l as [|a l IH]; simpl; auto. match goal with |- context [if ?b then _ else _] => destruct b eqn:B end; auto. simpl. rewrite B. f_equal. auto.
Qed.
Lemma InvT_alone s t cur : thr t (s_pc s t) cur -> of_thread t cur = cur -> InvT (alone s t cur).
Proof.
  intros T O u. cbn [alone s_pc s_log]. destruct (Nat.eqb_spec u t) as [->|Hu]; [now rewrite O|].
  rewrite (of_thread_other t u) by auto. constructor.
Qed.
(** how a step of the scheduler changes one thread's view *)
Lemma thr_sstep s m t cur : thr t (s_pc s t) cur -> of_thread t cur = cur ->
  exists acts, s_log (sstep s m) = s_log s ++ acts /\ thr t (s_pc (sstep s m) t) (cur ++ of_thread t acts).
Proof.
  intros T O. destruct (mover m) as [u|] eqn:M.
  - destruct (alone_sstep s m u (if u =? t then cur else []) M) as (acts & E1 & E2 & E3 & E4 & E5). exists acts. split; auto.
    destruct (Nat.eqb_spec u t) as [->|Hu].
    + pose proof (InvT_sstep _ m (InvT_alone s t cur T O) t) as K. rewrite E2, E3, of_thread_app, O in K. exact K.
    + rewrite (of_thread_mine u t) by auto. rewrite app_nil_r. destruct (E5 t) as [-> | ->]; auto. apply thr_woken; auto.
  - destruct m; try discriminate. cbn [sstep]. destruct (0 <=? d)%Z.
    + exists [ATick d]. cbn [s_log s_pc of_thread filter]. rewrite app_nil_r. auto.
    + exists []. rewrite !app_nil_r. auto.
Qed.

Section Inv.
  Context (raised : tid -> call -> list Z -> list act -> Prop) (c0 : Z).
  Definition view (s : sstate) (l : list xact) (t : tid) : Prop :=
    exists l0 cur, xof_thread t l = l0 ++ map XA cur /\ xcalls_ok raised t l0 /\ thr t (s_pc s t) cur /\ of_thread t cur = cur.
  Record InvX (x : xstate) : Prop := mkInvX {
    x_L : InvL (fst x); x_D : InvD c0 (fst x); x_G : log_ok c0 (s_log (fst x));
    x_plain : plain (snd x) = s_log (fst x);
    x_view : forall t, view (fst x) (snd x) t }.
  Lemma InvX_init : InvX (xsinit c0).
  Proof.
    destruct (Inv_init c0) as (L & D & G & T). constructor; auto. intros t. exists [], []. repeat split; constructor.
  Qed.
  Lemma InvX_move x m : InvX x -> InvX (xsstep x (XMove m)).
  Proof.
    destruct x as [s l]. intros [L D G P V]. cbn [fst snd xsstep] in *. constructor; cbn [fst snd].
    - apply InvL_sstep; auto.
    - apply InvD_sstep; auto.
    - apply log_ok_sstep; auto.
    - destruct (V 0) as (l0 & cur & _ & _ & T & O). destruct (thr_sstep s m 0 cur T O) as (acts & E & _).
      rewrite (added_app _ _ _ E), E, plain_app, plain_map, P. auto.
    - intros t. destruct (V t) as (l0 & cur & E0 & C & T & O). destruct (thr_sstep s m t cur T O) as (acts & E & K).
      exists l0, (cur ++ of_thread t acts). rewrite (added_app _ _ _ E), xof_app, xof_map, E0, map_app, app_assoc. repeat split; auto.
      rewrite of_thread_app, O, of_thread_idem. auto.
  Qed.
  (** the history of a thread that is inside a call *)
  Lemma thr_inside t p cur : p <> Idle -> thr t p cur -> exists l0 c ns effect,
    calls_ok t l0 /\ cur = l0 ++ ACall t c :: map (ANow t) ns ++ effect /\ raised_ok t c ns effect /\
    (calls_regulator p = true -> raised_by_regulator t c ns effect).
  Proof.
    intros N T.
    assert (A : forall c, pre t c cur -> exists l0 c ns effect, calls_ok t l0 /\ cur = l0 ++ ACall t c :: map (ANow t) ns ++ effect /\ raised_ok t c ns effect /\
       (calls_regulator p = true -> raised_by_regulator t c ns effect)).
    { intros c (l0 & ns & C & E). exists l0, c, ns, []. rewrite app_nil_r. repeat split; auto; left; auto. }
    assert (B : forall r, (calls_regulator p = true -> r = RetNone \/ exists e, r = RetEvent e) -> post t r cur -> exists l0 c ns effect, calls_ok t l0 /\ cur = l0 ++ ACall t c :: map (ANow t) ns ++ effect /\ raised_ok t c ns effect /\
       (calls_regulator p = true -> raised_by_regulator t c ns effect)).
    { intros r Hr (l0 & c & ns & a & C & E & K). exists l0, c, ns, [a]. repeat split; auto; [right; eauto|]. intros Q. right. destruct (Hr Q) as [-> | [e ->]];
      (destruct c; cbn in K; [exists a; eexists; split; [auto|]; split; [exact K|discriminate] | exists a; eexists; split; [auto|]; split; [exact K|discriminate] | exfalso..]).
      - destruct K as [(e & _ & K)|[(_ & K)|(_ & _ & K)]]; discriminate.
      - destruct K as (b & _ & K); discriminate.
      - destruct K as (b & _ & K); discriminate.
      - destruct K as [(e' & _ & K)|[(_ & K)|(_ & _ & K)]]; discriminate.
      - destruct K as (b & _ & K); discriminate.
      - destruct K as (b & _ & K); discriminate. }
    destruct p; cbn [thr calls_regulator] in *; try congruence; try (eapply A; eassumption); try (eapply B; [|eassumption]; intros; eauto; discriminate).
    1,2: destruct T as (l0 & C & ->); exists l0, (CSchedule o time absolute pr), [], []; repeat split; auto; left; auto.
    1,2: destruct T as (l0 & tm0 & a & ns & C & -> & _); exists l0, (CSchedule o tm0 a pr), ns, []; rewrite app_nil_r; repeat split; auto; left; auto.
    1,2: destruct b; [eapply A; eassumption | eapply B; [|eassumption]; intros; discriminate].
  Qed.
  Lemma xcalls_app t l0 cur : xcalls_ok raised t l0 -> calls_ok t cur -> xcalls_ok raised t (l0 ++ map XA cur).
  Proof.
    intros X. induction 1 as [|cur c ns a r C IH K]; [now rewrite app_nil_r|].
    rewrite map_app, app_assoc. apply xc_ret; auto.
  Qed.
  Lemma raise_log s t : s_log (raise_at s t) = s_log s ++ (if in_with (s_pc s t) then [ARel t] else []).
  Proof. unfold raise_at. destruct (in_with (s_pc s t)); reflexivity. Qed.
  Lemma raise_pc s t u : s_pc (raise_at s t) u = if u =? t then Idle else s_pc s u.
  Proof. unfold raise_at. destruct (in_with (s_pc s t)); reflexivity. Qed.
  Lemma InvX_raise x t : InvX x ->
    (forall c ns effect, raised_ok t c ns effect -> (calls_regulator (s_pc (fst x) t) = true -> raised_by_regulator t c ns effect) -> raised t c ns effect) ->
    InvX (xsstep x (XRaise t)).
  Proof.
    destruct x as [s l]. intros [L D G P V] HR. cbn [fst snd] in *.
    assert (Q : s_pc s t = Idle \/ s_pc s t <> Idle) by (destruct (s_pc s t); auto; right; discriminate).
    destruct Q as [Q|Q]; [unfold xsstep; rewrite Q; constructor; auto|].
    assert (E0 : xsstep (s, l) (XRaise t) = (raise_at s t, l ++ map XA (added s (raise_at s t)) ++ [XExn t])) by (unfold xsstep; destruct (s_pc s t); congruence).
    rewrite E0. rewrite (added_app _ _ _ (raise_log s t)). constructor; cbn [fst snd].
    - unfold raise_at. rewrite in_with_crit. destruct (crit (s_pc s t)) eqn:B; [apply InvL_release; auto | apply InvL_go; auto].
    - unfold raise_at. destruct (in_with (s_pc s t)); [unfold release; apply InvD_go; [apply InvD_lock; auto | simpl; now rewrite Nat.eqb_refl | exact I] | apply InvD_go; auto; exact I].
    - rewrite raise_log, in_with_crit. destruct (crit (s_pc s t)) eqn:B; [apply log_ok_snoc; auto; apply holder_is; auto | now rewrite app_nil_r].
    - rewrite raise_log, !plain_app, plain_map, P. cbn [plain flat_map]. now rewrite app_nil_r.
    - intros u. destruct (V u) as (l0 & cur & E & C & T & O).
      assert (Z : of_thread u (if in_with (s_pc s t) then [ARel t] else []) = []) by (destruct (in_with (s_pc s t)); reflexivity).
      unfold view. rewrite !xof_app, xof_map, Z, E. cbn [map app]. rewrite raise_pc. cbn [xof_thread flat_map]. destruct (Nat.eqb_spec u t) as [->|Hu].
      + destruct (thr_inside t (s_pc s t) cur Q T) as (l1 & c & ns & eff & C1 & -> & R1 & R2).
        exists ((l0 ++ map XA l1) ++ map XA (ACall t c :: map (ANow t) ns ++ eff) ++ [XExn t]), []. rewrite Nat.eqb_refl. cbn [app map]. rewrite app_nil_r.
        split; [rewrite map_app, <- !app_assoc; reflexivity|]. split; [|split; constructor].
        apply (xc_exn raised t (l0 ++ map XA l1) c ns eff); [apply xcalls_app; auto | apply HR; auto].
      + assert (Hb : (t =? u) = false) by (apply Nat.eqb_neq; auto). rewrite Hb. cbn [app]. rewrite app_nil_r. exists l0, cur. auto.
  Qed.
  Lemma view_idle s l t : view s l t -> s_pc s t = Idle -> xcalls_ok raised t (xof_thread t l).
  Proof. intros (l0 & cur & E & C & T & O) I. rewrite I in T. rewrite E. apply xcalls_app; auto. Qed.
End Inv.
Lemma InvX_reach c0 ms : forall x, InvX raised_ok c0 x -> InvX raised_ok c0 (xsrun x ms).
Proof.
  induction ms as [|m ms IH]; intros x I; cbn [xsrun fold_left]; auto. apply IH. destruct m; [apply InvX_move; auto | apply InvX_raise; auto].
Qed.
Lemma InvX_reach_regulator c0 ms : forall x, only_regulator x ms -> InvX raised_by_regulator c0 x -> InvX raised_by_regulator c0 (xsrun x ms).
Proof.
  induction ms as [|m ms IH]; intros x O I; cbn [xsrun fold_left]; auto.
  cbn [only_regulator] in O. destruct O as [O1 O2]. apply IH; auto. destruct m; [apply InvX_move; auto | apply InvX_raise; auto].
Qed.
Lemma payloads_app l m : payloads_returned (l ++ m) = payloads_returned l ++ payloads_returned m.
Proof. apply flat_map_app. Qed.
Lemma call_ok_payload t c ns a r : call_ok t c ns a r ->
  payloads_returned [a; ARet t r] = map e_obj (yielded [a; ARet t r]) /\ (match c with CNext _ => True | _ => yielded [a] = [] end) /\ payloads_returned [a] = [].
Proof.
  destruct c; cbn; intros K.
  - destruct K as (e & -> & -> & _); auto.
  - destruct K as [(-> & ->)|(-> & ->)]; auto.
  - destruct K as [(e' & -> & ->)|[(-> & ->)|(_ & -> & ->)]]; auto.
  - destruct K as (b & -> & ->); auto.
  - destruct K as (b & -> & ->); auto.
Qed.
Lemma nows_nothing t ns : payloads_returned (map (ANow t) ns) = [] /\ yielded (map (ANow t) ns) = [].
Proof. induction ns as [|n ns [I1 I2]]; simpl; auto. Qed.
Lemma no_event_lost t l : xcalls_ok raised_by_regulator t l -> payloads_returned (plain l) = map e_obj (yielded (plain l)).
Proof.
  induction 1 as [|l c ns a r C IH K|l c ns eff C IH K]; [reflexivity| |].
  - rewrite plain_app, plain_map, payloads_app, yielded_app, map_app, IH. f_equal.
    change (ACall t c :: map (ANow t) ns ++ [a; ARet t r]) with ([ACall t c] ++ map (ANow t) ns ++ [a; ARet t r]).
    rewrite !payloads_app, !yielded_app. destruct (nows_nothing t ns) as [-> ->]. destruct (call_ok_payload _ _ _ _ _ K) as (-> & _). reflexivity.
  - rewrite !plain_app, plain_map, !payloads_app, !yielded_app, !map_app, IH. f_equal. cbn [plain flat_map payloads_returned yielded map]. rewrite !app_nil_r.
    change (ACall t c :: map (ANow t) ns ++ eff) with ([ACall t c] ++ map (ANow t) ns ++ eff).
    fold (payloads_returned ([ACall t c] ++ map (ANow t) ns ++ eff)). fold (yielded ([ACall t c] ++ map (ANow t) ns ++ eff)).
    rewrite !payloads_app, !yielded_app. destruct (nows_nothing t ns) as [-> ->].
    destruct K as [-> | K]; [reflexivity|]. destruct c; try tauto; destruct K as (a & r & -> & K & _); apply call_ok_payload in K; destruct K as (_ & K1 & K2); cbn [app map]; rewrite K1, K2; reflexivity.
Qed.
