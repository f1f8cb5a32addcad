(** graphlib's search for a cycle finds one if and only if there is one. *)
From Verif Require Import PyBase PyBaseProof PyDict PyDictProof GraphModel GraphSpec GraphProof1 GraphProof6 GraphlibSpec GraphlibProof.
From Coq Require Import Lia.

Section Search.
  Context (I : infos) (ND : NoDup (dkeys I)) (closed_keys : forall d n, In n (succs I d) -> In n (dkeys I)).
  Let e (a b : nat) : Prop := In b (succs I a).

  (** nodes that are finished, the last one first: what they lead to finished before *)
  Inductive finished : list nat -> Prop :=
  | fin_nil : finished []
  | fin_cons n f : finished f -> ~ In n f -> incl (succs I n) f -> finished (n :: f).
  Lemma finished_closed f : finished f -> forall a b, In a f -> reaches e a b -> In b f.
  Proof.
    induction 1 as [|n f F IH N S]; intros a b Ia R; [destruct Ia|]. right.
    assert (One : forall x y, In x (n :: f) -> e x y -> In y f).
    { intros x y [<-|Ix] E; [now apply S|]. apply (IH x y Ix). now constructor. }
    destruct R as [a b E|a m b E R]; [eapply One; eauto|]. apply (IH m b); [eapply One; eauto|exact R].
  Qed.
  Lemma finished_acyclic f : finished f -> forall a, In a f -> ~ reaches e a a.
  Proof.
    induction 1 as [|n f F IH N S]; intros a Ia R; [destruct Ia|]. destruct Ia as [<-|Ia]; [|exact (IH a Ia R)].
    apply N. inversion R as [a b E|a m b E R']; subst; [now apply S|]. apply (finished_closed f F m n); [now apply S|exact R'].
  Qed.

  (** every node of the stack waits for the one above it, or for [child]; what it looked at before is finished *)
  Fixpoint frames (fin : list nat) (child : nat) (stack : list nat) (its : list (list nat)) : Prop :=
    match stack, its with
    | [], [] => True
    | s :: st, r :: it => (exists d, succs I s = d ++ child :: r /\ incl d fin) /\ frames fin s st it
    | _, _ => False
    end.
  Lemma frames_more fin fin' : incl fin fin' -> forall st c it, frames fin c st it -> frames fin' c st it.
  Proof. intros H. induction st as [|s st IH]; intros c [|r it]; cbn; auto. intros ((d & E & D) & F). split; [exists d; split; auto; intros x Ix; auto|auto]. Qed.
  Lemma frames_reach fin : forall st c it, frames fin c st it -> forall x, In x st -> reaches e x c.
  Proof.
    induction st as [|s st IH]; intros c [|r it]; cbn; try tauto. intros ((d & E & _) & F) x [<-|Ix].
    - constructor. unfold e. rewrite E. apply in_app_iff. right. now left.
    - assert (R := IH s it F x Ix). clear - R E. assert (Q : e s c) by (unfold e; rewrite E; apply in_app_iff; right; now left). clear E.
      induction R as [a b H|a m b H R IHR]; [eapply reachesS; [exact H|now constructor]|eapply reachesS; [exact H|auto]].
  Qed.
  (** the top of the stack, when its iterator is asked *)
  Definition asked (fin stack : list nat) (its : list (list nat)) : Prop :=
    match stack, its with
    | [], [] => True
    | s :: st, r :: it => (exists d, succs I s = d ++ r /\ incl d fin) /\ frames fin s st it
    | _, _ => False
    end.
  Record inv (fin stack seen : list nat) (stacki : dict nat) : Prop := mkInv {
    v_fin : finished fin;
    v_seen : forall n, In n seen <-> In n stack \/ In n fin;
    v_nd : NoDup stack;
    v_apart : forall n, In n stack -> ~ In n fin;
    v_keys : dkeys stacki = rev stack
  }.
  Definition left_over (its : list (list nat)) (seen : list nat) : nat :=
    fold_right (fun r n => length r + n) 0 its + wsum (dkeys I) (fun n => if smem n seen then 0 else length (succs I n)).

  Lemma lremove_last x l : ~ In x l -> lremove x (l ++ [x]) = l.
  Proof.
    induction l as [|y l IH]; cbn; intros N; [now rewrite Nat.eqb_refl|]. destruct (Nat.eqb_spec x y) as [->|Ne]; [tauto|]. rewrite IH; tauto.
  Qed.
  Lemma backtrack_spec seen : forall stack its stacki fin, inv fin stack seen stacki -> asked fin stack its ->
    match backtrack stack its stacki with
    | Some (node, stack', its', stacki') => exists fin', incl fin fin' /\ inv fin' stack' seen stacki' /\ frames fin' node stack' its' /\ stack' <> [] /\
        S (left_over its' seen) <= left_over its seen
    | None => exists fin', incl fin fin' /\ finished fin' /\ forall n, In n seen <-> In n fin'
    end.
  Proof.
    induction stack as [|s st IH]; intros [|r it] stacki fin V A; cbn [asked] in A; try contradiction.
    - cbn. exists fin. split; [apply incl_refl|]. split; [apply V|]. intros n. rewrite (v_seen _ _ _ _ V). cbn. tauto.
    - destruct A as ((d & E & D) & F). destruct r as [|x r]; cbn [backtrack].
      + rewrite app_nil_r in E. destruct V as [V1 V2 V3 V4 V5]. inversion V3; subst.
        assert (V' : inv (s :: fin) st seen (ddel stacki s)).
        { constructor; auto.
          - apply fin_cons; [exact V1|apply V4; now left|exact D].
          - intros n. rewrite V2. cbn. tauto.
          - intros n In' [<-|J]; [tauto|]. apply (V4 n); auto. now right.
          - rewrite dkeys_ddel, V5. cbn. apply lremove_last. rewrite <- in_rev. auto. }
        assert (A' : asked (s :: fin) st it).
        { destruct st as [|s2 st], it as [|r2 it]; cbn in F |- *; try contradiction; auto. destruct F as ((d2 & E2 & D2) & F2). split.
          - exists (d2 ++ [s]). rewrite <- app_assoc. split; auto. intros y Iy. apply in_app_iff in Iy as [Iy|[<-|[]]]; [right; auto|now left].
          - eapply frames_more; [|exact F2]. intros y Iy. now right. }
        specialize (IH it (ddel stacki s) (s :: fin) V' A'). destruct (backtrack st it (ddel stacki s)) as [[[[n st'] it'] si']|].
        * destruct IH as (fin' & J & IH). exists fin'. split; [intros y Iy; apply J; now right|]. exact IH.
        * destruct IH as (fin' & J & IH). exists fin'. split; [intros y Iy; apply J; now right|]. exact IH.
      + exists fin. split; [apply incl_refl|]. split; auto. split; [|split; [discriminate|unfold left_over; cbn; lia]]. cbn [frames]. split; auto. exists d. split; auto.
  Qed.

  Lemma walk_spec : forall fuel node stack its seen stacki fin, inv fin stack seen stacki -> frames fin node stack its -> In node (dkeys I) ->
    (stack = [] -> ~ In node seen) -> left_over its seen < fuel ->
    exists r seen', walk fuel I node stack its seen stacki = Some (r, seen') /\
      match r with
      | Some _ => exists n, reaches e n n
      | None => exists fin', finished fin' /\ incl seen seen' /\ In node seen' /\ forall n, In n seen' <-> In n fin'
      end.
  Proof.
    induction fuel as [|f IH]; intros node stack its seen stacki fin V F K N0 L; [lia|]. cbn [walk].
    destruct (smem node seen) eqn:M.
    - apply smem_true in M. destruct (dget stacki node) as [i|] eqn:G.
      + exists (Some (skipn i (rev stack) ++ [node])), seen. split; auto. exists node. apply dget_in in G. apply (in_map fst) in G. cbn in G.
        change (map fst stacki) with (dkeys stacki) in G. rewrite (v_keys _ _ _ _ V), <- in_rev in G. eapply frames_reach; eauto.
      + apply dget_none in G. rewrite (v_keys _ _ _ _ V), <- in_rev in G. assert (Fin : In node fin) by (apply (v_seen _ _ _ _ V) in M; tauto).
        assert (A : asked fin stack its).
        { destruct stack as [|s st], its as [|r it]; cbn in F |- *; try contradiction; auto. destruct F as ((d & E & D) & F). split; auto.
          exists (d ++ [node]). rewrite <- app_assoc. split; auto. intros y Iy. apply in_app_iff in Iy as [Iy|[<-|[]]]; auto. }
        pose proof (backtrack_spec seen stack its stacki fin V A) as B. destruct (backtrack stack its stacki) as [[[[n st'] it'] si']|].
        * destruct B as (fin' & J & V' & F' & Ne & L'). assert (K' : In n (dkeys I)).
          { destruct st' as [|s2 st2], it' as [|r2 it2]; cbn in F'; try contradiction; try congruence. destruct F' as ((d & E & _) & _). apply (closed_keys s2). rewrite E. apply in_app_iff. right. now left. }
          destruct (IH n st' it' seen si' fin' V' F' K') as (r & seen' & W & R); [intros; congruence|lia|]. exists r, seen'. split; auto.
          destruct r; auto. destruct R as (fin2 & R1 & R2 & _ & R3). exists fin2. repeat (split; auto).
        * destruct B as (fin' & J & B1 & B2). exists None, seen. split; auto. exists fin'. split; auto. split; [apply incl_refl|]. auto.
    - apply smem_false in M.
      assert (V' : inv fin (node :: stack) (sadd node seen) (dset stacki node (length stack))).
      { destruct V as [V1 V2 V3 V4 V5]. constructor; auto.
        - intros n. rewrite in_sadd, V2. cbn. intuition congruence.
        - constructor; auto. intros Is. apply M, V2. auto.
        - intros n [<-|Is]; [intros Jf; apply M, V2; auto|auto].
        - rewrite dkeys_dset_new; [rewrite V5; reflexivity|]. rewrite V5, <- in_rev. intros Is. apply M, V2. auto. }
      assert (A : asked fin (node :: stack) (succs I node :: its)) by (cbn; split; auto; exists []; split; auto; intros y []).
      assert (L1 : left_over (succs I node :: its) (sadd node seen) = left_over its seen).
      { unfold left_over. cbn. pose proof (wsum_point (dkeys I) (fun n => if smem n seen then 0 else length (succs I n)) (fun n => if smem n (sadd node seen) then 0 else length (succs I n)) node ND K) as Q.
        cbv beta in Q. assert (M1 : smem node seen = false) by now apply smem_false. assert (M2 : smem node (sadd node seen) = true) by (apply smem_true, in_sadd; auto).
        rewrite M1, M2 in Q. match type of Q with ?P -> _ => assert (HP : P); [clear Q|specialize (Q HP); lia] end. intros y _ Ne. destruct (smem y seen) eqn:E1, (smem y (sadd node seen)) eqn:E2; auto;
        [apply smem_true in E1; apply smem_false in E2; exfalso; apply E2, in_sadd; auto|apply smem_false in E1; apply smem_true, in_sadd in E2; tauto]. }
      pose proof (backtrack_spec (sadd node seen) _ _ _ fin V' A) as B. destruct (backtrack (node :: stack) (succs I node :: its) (dset stacki node (length stack))) as [[[[n st'] it'] si']|].
      + destruct B as (fin' & J & V2 & F' & Ne & L'). assert (K' : In n (dkeys I)).
        { destruct st' as [|s2 st2], it' as [|r2 it2]; cbn in F'; try contradiction; try congruence. destruct F' as ((d & E & _) & _). apply (closed_keys s2). rewrite E. apply in_app_iff. right. now left. }
        destruct (IH n st' it' (sadd node seen) si' fin' V2 F' K') as (r & seen' & W & R); [intros; congruence|lia|]. exists r, seen'. split; auto.
        destruct r; auto. destruct R as (fin2 & R1 & R2 & _ & R3). exists fin2. split; auto. split; [intros y Iy; apply R2, in_sadd; auto|]. split; auto. apply R2, in_sadd. auto.
      + destruct B as (fin' & J & B1 & B2). exists None, (sadd node seen). split; auto. exists fin'. split; auto. split; [intros y Iy; apply in_sadd; auto|]. split; auto. apply in_sadd. auto.
  Qed.

  Lemma search_spec : forall nodes seen fin fuel, incl nodes (dkeys I) -> finished fin -> (forall n, In n seen <-> In n fin) -> left_over [] seen < fuel ->
    exists r, search fuel I nodes seen = Some r /\
      match r with Some _ => exists n, reaches e n n | None => exists fin', finished fin' /\ incl seen fin' /\ incl nodes fin' end.
  Proof.
    induction nodes as [|n nodes IH]; intros seen fin fuel K F S L; cbn [search].
    - exists None. split; auto. exists fin. split; auto. split; [intros y; apply S|intros y []].
    - assert (K2 : incl nodes (dkeys I)) by (intros y Iy; apply K; now right). destruct (smem n seen) eqn:M.
      + apply smem_true in M. destruct (IH seen fin fuel K2 F S L) as (r & E & R). exists r. split; auto. destruct r; auto. destruct R as (f' & R1 & R2 & R3). exists f'. split; auto. split; auto.
        intros y [<-|Iy]; auto.
      + apply smem_false in M. destruct (walk_spec fuel n [] [] seen [] fin) as (r & seen' & W & R); auto.
        { constructor; auto; [intros y; rewrite S; cbn; tauto|constructor]. }
        { cbn. auto. } { apply K. now left. }
        rewrite W. destruct r as [c|]; [exists (Some c); auto|]. destruct R as (f' & R1 & R2 & R3 & R4).
        destruct (IH seen' f' fuel K2 R1 R4) as (r & E & Q).
        { eapply Nat.le_lt_trans; [|exact L]. unfold left_over. cbn. clear - R2. induction (dkeys I) as [|k l IHl]; cbn; auto. destruct (smem k seen) eqn:E1, (smem k seen') eqn:E2; try lia.
          apply smem_true in E1. apply smem_false in E2. exfalso. auto. }
        exists r. split; auto. destruct r; auto. destruct Q as (f2 & Q1 & Q2 & Q3). exists f2. split; auto. split; [intros y Iy; auto|]. intros y [<-|Iy]; auto.
  Qed.
  Theorem find_cycle_correct : exists r, find_cycle I = Some r /\ (r <> None <-> ~ acyclic e).
  Proof.
    destruct (search_spec (dkeys I) [] [] (enough I)) as (r & E & R); [apply incl_refl|constructor|intros; tauto| |].
    - unfold enough, left_over. cbn. apply Nat.lt_succ_r, Nat.eq_le_incl. clear closed_keys e. assert (G : forall J : infos, NoDup (dkeys J) -> (forall k, In k (dkeys J) -> succs J k = succs I k) ->
        wsum (dkeys J) (fun n => length (succs I n)) = fold_right (fun p n => length (snd (snd p)) + n) 0 J).
      { induction J as [|[k [c s]] J IH]; cbn; auto. intros N H. inversion N; subst. rewrite <- IH; auto.
        - f_equal. rewrite <- H by auto. unfold succs. cbn. now rewrite Nat.eqb_refl.
        - intros k' Ik. rewrite <- H by auto. unfold succs. cbn. destruct (Nat.eqb_spec k' k) as [->|]; [tauto|auto]. }
      apply G; auto.
    - exists r. split; auto. destruct r as [c|].
      + destruct R as (n & R). split; [intros _ A; exact (A n R)|intros _; discriminate].
      + destruct R as (f & F & _ & K). split; [congruence|]. intros NA. exfalso. apply NA. intros n Rn. apply (finished_acyclic f F n); auto. apply K.
        destruct (in_dec Nat.eq_dec n (dkeys I)) as [|Nk]; auto. exfalso. inversion Rn as [a b E1|a m b E1 _]; subst; unfold e in E1; rewrite (succs_nokey I n Nk) in E1; destruct E1.
  Qed.
End Search.

(** the graph that add() builds: its cycles are those of the declared dependencies *)
Theorem lib_cyclic_correct adds : lib_cyclic (lib_graph adds) = true <-> ~ acyclic (declared adds).
Proof.
  destruct (built_adds False adds [] (repeat (fun l => l) (length adds)) [] false (v_fresh 0) [] [] (BI_start False)) as (N & d & V & _ & _ & B); [tauto|apply repeat_length|].
  cbn [app] in B. fold (lib_graph adds) in B. destruct B as [HN HV HY HD HG HR [Hk He Hp Hx] Hd Hdecl].
  assert (Q : forall a b, In b (succs (lib_graph adds) a) <-> declared adds a b) by (intros; rewrite He; apply Hdecl).
  destruct (find_cycle_correct (lib_graph adds)) as (r & E & R).
  - rewrite Hk. apply HN.
  - intros a b J. apply He in J. rewrite Hk. apply (ni_closed N HN a). exact J.
  - unfold lib_cyclic. rewrite E. assert (Q2 := edge_acyclic_iff (fun a b => In b (succs (lib_graph adds) a)) (declared adds) Q). destruct r; split; intros H; try discriminate; auto; [rewrite <- Q2; apply R; discriminate|exfalso; rewrite <- Q2 in H; apply R in H; congruence].
Qed.

(** programs in order *)
Lemma py_adds adds : forall l, exists l', py_results (false, l) (map (fun a => PAdd (fst a) (snd a)) adds) = map (fun _ => Ok VUnit) adds /\
  l_info l' = fold_left (fun I a => lib_add I (fst a) (snd a)) adds (l_info l) /\
  forall t, py_results (false, l) (map (fun a => PAdd (fst a) (snd a)) adds ++ t) = map (fun _ => Ok VUnit) adds ++ py_results (false, l') t.
Proof.
  induction adds as [|[n ds] adds IH]; intros l; cbn [map app py_results py_step fst snd fold_left].
  - exists l. auto.
  - destruct (IH (mkLib (lib_add (l_info l) n ds) [] 0 0)) as (l' & E & L & T). exists l'. rewrite E, L. split; auto. split; auto. intros t. now rewrite T.
Qed.
Lemma py_calls cs : forall l, until_error (py_results (true, l) (map PCall cs)) = lib_calls l cs.
Proof.
  induction cs as [|c cs IH]; intros l; cbn [map py_results py_step lib_calls]; auto. destruct (lib_call l c) as [l' [x|e]]; cbn [until_error]; auto. now rewrite IH.
Qed.
Lemma py_in_order adds cs : until_error (py_results py_start (map (fun a => PAdd (fst a) (snd a)) adds ++ PPrepare :: map PCall cs)) = lib_run (lib_cyclic (lib_graph adds)) adds cs.
Proof.
  destruct (py_adds adds (mkLib [] [] 0 0)) as (l & _ & L & T). cbn [l_info] in L. fold (lib_graph adds) in L. unfold py_start. rewrite T, until_error_app_ok. unfold lib_run. f_equal.
  cbn [py_results py_step until_error]. rewrite L. destruct (lib_cyclic (lib_graph adds)); auto. now rewrite py_calls.
Qed.
Lemma out_of_order_raises prog : in_order prog \/ In (Err ValueError) (py_results py_start prog).
Proof.
  assert (C : forall q l, (exists cs, q = map PCall cs) \/ In (Err ValueError) (py_results (true, l) q)).
  { induction q as [|c p IH]; intros l; [left; exists []; auto|]. destruct c as [n ds| |c]; try (right; now left). cbn [py_results py_step].
    destruct (lib_call l c) as [l' r]. destruct (IH l') as [(cs & ->)|H]; [left; exists (c :: cs); auto|right; now right]. }
  assert (A : forall q l, in_order q \/ In (Err ValueError) (py_results (false, l) q)).
  { induction q as [|c p IH]; intros l; [left; left; exists []; auto|]. destruct c as [n ds| |c].
    - cbn [py_results py_step]. destruct (IH (mkLib (lib_add (l_info l) n ds) [] 0 0)) as [[(adds & ->)|(adds & cs & ->)]|H].
      + left. left. exists ((n, ds) :: adds). auto.
      + left. right. exists ((n, ds) :: adds), cs. auto.
      + right. now right.
    - cbn [py_results py_step]. destruct (C p (lib_prepared (l_info l))) as [(cs & ->)|H]; [left; right; exists [], cs; auto|right; now right].
    - right. now left. }
  apply A.
Qed.
Lemma adds_of_adds adds : adds_of (map (fun a => PAdd (fst a) (snd a)) adds) = adds.
Proof. induction adds as [|[n ds] t IH]; [reflexivity|]. change ((n, ds) :: adds_of (map (fun a => PAdd (fst a) (snd a)) t) = (n, ds) :: t). now rewrite IH. Qed.
Lemma adds_of_order adds cs : adds_of (map (fun a => PAdd (fst a) (snd a)) adds ++ PPrepare :: map PCall cs) = adds.
Proof. unfold adds_of. rewrite flat_map_app. fold (adds_of (map (fun a : nat * list nat => PAdd (fst a) (snd a)) adds)). rewrite adds_of_adds. cbn. replace (flat_map _ (map PCall cs)) with (@nil (nat * list nat)); [apply app_nil_r|]. induction cs; cbn; auto. Qed.

Theorem drop_in_py (X : Prop) prog ords : (X -> no_repeats (adds_of prog)) -> in_order prog ->
  length ords = S (length prog) -> Forall set_order ords -> (forall ns, In (PCall (LDone ns)) prog -> NoDup ns) ->
  Forall2 same_result (until_error (results (combine ords (ONewGraph :: map big_op prog)) (mkW [] []))) (Ok (VGraph 0 0) :: until_error (py_results py_start prog)) /\
  (X -> until_error (results (combine ords (ONewGraph :: map big_op prog)) (mkW [] [])) = Ok (VGraph 0 0) :: until_error (py_results py_start prog)).
Proof.
  intros HX [(adds & ->)|(adds & cs & ->)] HL HO HD.
  - rewrite adds_of_adds in HX. unfold py_start. destruct (py_adds adds (mkLib [] [] 0 0)) as (l & E & _ & _). rewrite E.
    destruct ords as [|o0 os]; [discriminate|]. rewrite map_length in HL. cbn [length] in HL. injection HL as HL. cbn [combine results step until_error].
    change (new_graph (mkW [] [])) with (built [] false (v_fresh 0)). rewrite map_map. cbn [big_op].
    destruct (built_adds X adds [] os [] false (v_fresh 0) [] [] (BI_start X) HX HL) as (N' & d' & V' & R & _ & _). rewrite app_nil_r in R. rewrite R. cbn [results].
    rewrite app_nil_r. replace (until_error (map (fun _ => Ok VUnit) adds)) with (map (fun _ : nat * list nat => Ok VUnit) adds) by (clear; induction adds; cbn; congruence).
    split; auto. constructor; [left; auto|]. clear. induction adds; constructor; auto. left. auto.
  - rewrite adds_of_order in HX. rewrite py_in_order. assert (P : ONewGraph :: map big_op (map (fun a : nat * list nat => PAdd (fst a) (snd a)) adds ++ PPrepare :: map PCall cs) = big_program adds cs).
    { unfold big_program. rewrite map_app, map_map. cbn [map big_op]. rewrite map_map. reflexivity. }
    rewrite P. apply drop_in; auto.
    + rewrite HL, <- P. cbn [length]. now rewrite map_length.
    + apply lib_cyclic_correct.
    + intros ns I. apply HD. apply in_app_iff. right. right. now apply in_map.
Qed.
Theorem static_order_py adds ords ord fuel : no_repeats adds -> length ords = S (length adds) -> set_order ord ->
  option_map snd (static_order ord (S fuel) (snd (play (combine ords (ONewGraph :: map (fun a => OAdd 0 (fst a) (snd a)) adds)) [] (mkW [] []))) 0) =
  py_static_order (S fuel) (false, mkLib (lib_graph adds) [] 0 0).
Proof.
  intros HX HL HO. rewrite (static_order_same adds ords ord fuel (lib_cyclic (lib_graph adds)) HX HL HO (lib_cyclic_correct adds)).
  unfold lib_static_order, py_static_order. cbn [py_step l_info]. destruct (lib_cyclic (lib_graph adds)); reflexivity.
Qed.
