(** C22, exactly: what a done() that fails has done. *)
From Verif Require Import PyBase PyBaseProof PyDict PyDictProof GraphModel GraphSpec GraphProof1 GraphProof2 GraphProof3 GraphProof4 GraphProof5 GraphProof6 GraphProof7 GraphProof8 GraphProof9 GraphProps.
From Coq Require Import Lia.

(** the parts of a view that marking nodes leaves alone, and that it needs *)
Record kept (K : list nat) (V V1 : view) : Prop := mkKept {
  kp_graph : v_graph V1 = v_graph V; kp_y : v_yielded V1 = v_yielded V; kp_d : v_done V1 = v_done V;
  kp_c : v_conf V1 = v_conf V; kp_r : v_rconf V1 = v_rconf V;
  kp_pred : forall n, In n K -> dget (v_pred V1) n <> None }.
Lemma kept_trans K V V1 V2 : kept K V V1 -> kept K V1 V2 -> kept K V V2.
Proof. intros [] []. constructor; try congruence; auto. Qed.
Lemma mark_one_kept K V n : In n K -> (forall m, In m K -> dget (v_pred V) m <> None) ->
  exists V1, v_mark_one V n = (V1, Ok tt) /\ kept K V V1.
Proof.
  intros I H. unfold v_mark_one. destruct (_ || _); [exists V; split; auto; constructor; auto|].
  destruct (dget (v_pred V) n) as [k|] eqn:E; [|now apply H in I].
  assert (P : forall m, In m K -> dget (dset (v_pred V) n (k - 1)%Z) m <> None).
  { intros m Hm. rewrite dget_dset. destruct (m =? n); [discriminate|auto]. }
  destruct (k - 1 =? 0)%Z; eexists; (split; [reflexivity|]); constructor; auto.
Qed.
Lemma mark_done_kept K V l : (forall n, In n l -> In n K) -> (forall m, In m K -> dget (v_pred V) m <> None) ->
  exists V1, v_mark_done V l = (V1, Ok tt) /\ kept K V V1.
Proof.
  unfold v_mark_done. revert V. induction l as [|n l IH]; intros V Hl HP; cbn [for_each]; [exists V; split; auto; constructor; auto|].
  destruct (mark_one_kept K V n (Hl n (or_introl eq_refl)) HP) as (V1 & -> & K1).
  destruct (IH V1) as (V2 & -> & K2); [intros; apply Hl; cbn; auto|apply K1|]. exists V2. split; auto. eapply kept_trans; eauto.
Qed.
Lemma done_loop_kept N V pre : NI N -> (forall n, In n (dkeys N) -> dget (v_pred V) n <> None) ->
  (forall n, In n pre -> In n (v_yielded V) /\ In n (dkeys N)) ->
  exists V1, kept (dkeys N) V V1 /\ v_done_loop N V pre = (V1, Ok tt) /\
    forall bad post, ~ In bad (v_yielded V) -> v_done_loop N V (pre ++ bad :: post) = (V1, Err ValueError).
Proof.
  intros HN. unfold v_done_loop. revert V. induction pre as [|n pre IH]; intros V HP Hy.
  - exists V. split; [constructor; auto|]. split; auto. intros bad post Hb. cbn [app for_each]. apply smem_false in Hb. rewrite Hb.
    destruct (negb (dmem bad N)); reflexivity.
  - destruct (Hy n (or_introl eq_refl)) as [Y Kn].
    destruct (mark_done_kept (dkeys N) V (succs_of N n)) as (V1 & E1 & K1); auto.
    { intros m I. eapply ni_closed; eauto. apply edge_succ. exact I. }
    destruct (IH V1) as (V2 & K2 & E2 & F2); [apply K1|intros m I; rewrite (kp_y _ _ _ K1); apply Hy; cbn; auto|].
    apply smem_true in Y. apply dmem_true in Kn. exists V2. split; [eapply kept_trans; eauto|]. cbn [app for_each]. rewrite Kn, Y. cbn [negb]. rewrite E1.
    split; auto. intros bad post Hb. apply F2. now rewrite (kp_y _ _ _ K1).
Qed.

(** C22: suppose done() is given nodes [pre] that are ready to be marked, then one that is not.
    It raises ValueError; after it ready() returns what it would return after done(pre...) - but
    the nodes are not done: done(pre...) is still accepted, and bool(view) is what it was. *)
Theorem C22_failed_done_exact : forall h w v g ord pre bad post, run h w -> good h -> view_on h v g ->
  (forall d m, ~ conflict h v d m) -> (forall n, In n pre -> handed h v n /\ ~ is_done h v n) -> ~ (handed h v bad /\ ~ is_done h v bad) ->
  exists w1 w2, step ord w (ODone v (pre ++ bad :: post)) = (w1, Err ValueError) /\ step ord w (ODone v pre) = (w2, Ok VUnit) /\
    (forall ord', snd (step ord' w1 (OReady v)) = snd (step ord' w2 (OReady v))) /\
    (forall ord', snd (step ord' w1 (ODone v pre)) = Ok VUnit) /\
    (forall ord', snd (step ord' w1 (OBool v)) = snd (step ord' w (OBool v))).
Proof.
  intros h w v g ord pre bad post R Gd On NC Hp Hb. pose proof (run_WI _ _ R Gd) as W.
  destruct (open_view _ _ _ _ W On) as (G & V & EG & EV & VR & GR).
  destruct (conf_dec _ _ _ _ _ VR) as [[C _]|[_ (d & m & C)]]; [|now apply NC in C].
  pose proof (vr_inv _ _ _ _ _ VR) as [I _]. pose proof (gr_ni _ _ _ _ GR) as HN.
  assert (Hy : forall n, In n pre -> In n (v_yielded V) /\ In n (dkeys (g_nodes G))).
  { intros n Hn. apply Hp in Hn. apply (vr_y _ _ _ _ _ VR) in Hn. split; auto. eapply vi_yk; eauto. }
  destruct (done_loop_kept (g_nodes G) V pre HN (vi_pred _ _ _ _ _ I) Hy) as (V1 & K1 & E1 & F1).
  destruct (done_loop_kept (g_nodes G) V1 pre HN (kp_pred _ _ _ K1)) as (V2 & K2 & E2 & _).
  { intros n Hn. rewrite (kp_y _ _ _ K1). auto. }
  rewrite <- (vr_y _ _ _ _ _ VR) in Hb. specialize (F1 bad post Hb).
  pose proof (nth_error_some_lt _ _ _ EV) as Lv. destruct K1 as [k1 k2 k3 k4 k5 k6].
  assert (L1 : forall X, nth_error (w_views (put_view w v X)) v = Some X).
  { intros X. unfold put_view. cbn [w_views]. rewrite nth_error_upd, Nat.eqb_refl. apply Nat.ltb_lt in Lv. now rewrite Lv. }
  assert (L2 : forall X, nth_error (w_graphs (put_view w v X)) g = Some G) by (intros; exact EG).
  exists (put_view w v V1), (put_view w v (set_yielded (set_done V1 (sunion (v_done V1) pre)) (sdiff (v_yielded V1) pre))).
  pose proof (vr_graph _ _ _ _ _ VR) as Vg.
  split; [|split; [|split; [|split]]].
  - cbn [step]. unfold with_open, with_graph, no_conflict. rewrite EV, Vg, EG, C. unfold v_do_done. rewrite F1. reflexivity.
  - cbn [step]. unfold with_open, with_graph, no_conflict. rewrite EV, Vg, EG, C. unfold v_do_done. rewrite E1. reflexivity.
  - intros ord'. cbn [step]. unfold with_open. rewrite !L1. cbn [v_graph set_yielded set_done]. rewrite k1, Vg. unfold with_graph. rewrite !L2.
    unfold no_conflict. cbn [v_conf set_yielded set_done]. rewrite k4, C. destruct (g_check _ _ _) as [d [[]|]]; reflexivity.
  - intros ord'. cbn [step]. unfold with_open. rewrite !L1, k1, Vg. unfold with_graph. rewrite !L2. unfold no_conflict. rewrite k4, C. unfold v_do_done. rewrite E2. reflexivity.
  - intros ord'. cbn [step]. unfold with_open. rewrite !L1, k1, Vg. unfold with_graph. rewrite !L2, EV, Vg, EG. unfold no_conflict. rewrite k4, C, k3. reflexivity.
Qed.
Print Assumptions C22_failed_done_exact.
(** In the demo of GraphProps.v (2 and 3 handed out, both before 4): done(2, 3, 9) raises, yet 4 is
    then ready; and done(2, 3, 9) leaves done(2, 3) possible. *)
Example C22_exact_witness : (forall n, In n [2; 3] -> handed demo_h 0 n /\ ~ is_done demo_h 0 n) /\ ~ (handed demo_h 0 9 /\ ~ is_done demo_h 0 9) /\
  results (calls (demo ++ [ODone 0 [2; 3; 9]; OReady 0; OBool 0; ODone 0 [2; 3]])) start =
  results (calls demo) start ++ [Err ValueError; Ok (VNodes [4]); Ok (VBool true); Ok VUnit].
Proof.
  unfold demo_h. vm_compute play. cbn [fst].
  split; [intros n [<-|[<-|[]]]; cbn; intuition congruence|]. split; [cbn; intuition congruence|]. vm_compute. reflexivity.
Qed.
