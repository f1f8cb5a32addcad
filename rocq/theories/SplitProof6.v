(** When no two separators can overlap, cutting from the left and cutting from the right are the same. *)
From Verif Require Import PyStr SplitModel SplitSpec SplitSpec6 SplitProof SplitProof2 SplitProof3 PyBaseProof PyStrProof.

Lemma app_len_inv (A : Type) (a b c d : list A) : a ++ b = c ++ d -> length a <= length c -> exists m, c = a ++ m /\ b = m ++ d.
Proof.
  revert c. induction a as [|x a IH]; cbn; intros c E L; [exists c; auto|]. destruct c as [|z c]; cbn in *; [lia|]. injection E as -> E.
  destruct (IH c E ltac:(lia)) as (m & -> & ->). exists m. auto.
Qed.

Section NoOverlap.
  Context (seps : list str) (NE : Forall (fun w : str => w <> []) seps) (NO : no_overlap seps).

  Lemma sep_ne v : In v seps -> v <> [].
  Proof. rewrite Forall_forall in NE. auto. Qed.
  Lemma sep_pos v : In v seps -> 0 < length v.
  Proof. intros H. apply sep_ne in H. destruct v; cbn; [congruence|lia]. Qed.
  Lemma at_occ s i : sep_at seps s i <-> exists p v q, In v seps /\ s = p ++ v ++ q /\ length p = i.
  Proof.
    split.
    - intros (w & t & H & E). exists (firstn i s), w, t. split; auto. rewrite <- E, firstn_skipn. split; auto. apply firstn_length_le.
      assert (N : 0 < length (skipn i s)) by (rewrite E, app_length; pose proof (sep_pos _ H); lia). rewrite skipn_length in N. lia.
    - intros (p & v & q & H & -> & <-). exists v, q. split; auto. rewrite skipn_app, skipn_all, Nat.sub_diag. reflexivity.
  Qed.
  Lemma ends_occ s i : sep_ends seps s i <-> exists p v q, In v seps /\ s = p ++ v ++ q /\ length q = i.
  Proof.
    split.
    - intros (w & t & H & E & L). exists t, w, (skipn (length s - i) s). split; auto. rewrite app_assoc, <- E, firstn_skipn. split; auto. rewrite skipn_length. lia.
    - intros (p & v & q & H & -> & <-). exists v, p. split; auto. rewrite !app_length. split; [|lia]. rewrite app_assoc, firstn_app.
      replace (length p + (length v + length q) - length q) with (length (p ++ v)) by (rewrite app_length; lia). rewrite firstn_all, Nat.sub_diag. cbn. now rewrite app_nil_r.
  Qed.
  Lemma free_occ s : sep_free seps s <-> forall p v q, In v seps -> s <> p ++ v ++ q.
  Proof.
    split; intros F.
    - intros p v q H E. apply (F (length p)). apply at_occ. eauto 6.
    - intros i H. apply at_occ in H as (p & v & q & H & E & _). eapply F; eauto.
  Qed.

  (** a separator that starts inside the longest one at some place ends inside it *)
  Lemma longest_occ w t p v q : longest seps w t -> In v seps -> w ++ t = p ++ v ++ q -> length p < length w -> length p + length v <= length w.
  Proof.
    intros [Iw Lw] Iv E L. destruct (Nat.le_gt_cases (length p + length v) (length w)) as [|G]; auto. exfalso.
    symmetry in E. destruct (app_len_inv _ _ _ _ _ E ltac:(lia)) as (m & -> & E').
    rewrite app_length in *. destruct (app_len_inv _ _ _ _ _ (eq_sym E')) as (y & -> & _); [lia|]. rewrite app_length in *.
    destruct p as [|c p].
    - cbn in *. specialize (Lw (m ++ y) q Iv). rewrite app_length in Lw. rewrite <- E in Lw. specialize (Lw eq_refl). lia.
    - apply (NO (c :: p) m y); auto; [discriminate|destruct m; cbn in *; [lia|discriminate]|destruct y; cbn in *; [lia|discriminate]].
  Qed.
  (** a run of separators: its parts *)
  Definition tiled (ws : list str) (t : str) : Prop :=
    Forall (fun w => In w seps) ws /\
    forall a w b p v q, ws = a ++ w :: b -> In v seps -> concat ws ++ t = p ++ v ++ q -> length (concat a) <= length p -> length p < length (concat a) + length w ->
      length p + length v <= length (concat a) + length w.
  Lemma longest_tiled w t : longest seps w t -> tiled [w] t.
  Proof.
    intros LW. split; [constructor; [apply LW|constructor]|]. intros a w' b p v q E Iv E' L1 L2. destruct a as [|? [|? ?]]; cbn in *; try discriminate. injection E as <- <-.
    rewrite app_nil_r in E'. cbn in *. eapply longest_occ; eauto.
  Qed.
  Lemma run_tiled w t : run seps w t -> exists ws, ws <> [] /\ w = concat ws /\ tiled ws t /\ ~ sep_at seps t 0.
  Proof.
    induction 1 as [w t LW N|w w' t LW R (ws & NW & -> & [TF TT] & N)].
    - exists [w]. cbn. rewrite app_nil_r. split; [discriminate|]. split; auto. split; auto. apply longest_tiled; auto.
    - exists (w :: ws). split; [discriminate|]. split; auto. split; auto. split; [constructor; auto; apply LW|].
      intros a w0 b p v q E Iv E' L1 L2. destruct a as [|w1 a]; cbn in *.
      + injection E as <- <-. rewrite <- app_assoc in E'. eapply longest_occ; eauto.
      + injection E as <- ->. rewrite <- app_assoc in E'. rewrite app_length in *. symmetry in E'.
        destruct (app_len_inv _ _ _ _ _ (eq_sym E') ltac:(lia)) as (p' & -> & E''). rewrite app_length in *.
        specialize (TT a w0 b p' v q eq_refl Iv E''). lia.
  Qed.
  Lemma tiled_in ws t p v q : tiled ws t -> In v seps -> concat ws ++ t = p ++ v ++ q -> length p < length (concat ws) ->
    exists a w b, ws = a ++ w :: b /\ length (concat a) <= length p /\ length p + length v <= length (concat a) + length w.
  Proof.
    intros [_ TT] Iv E L.
    assert (F : exists a w b, ws = a ++ w :: b /\ length (concat a) <= length p < length (concat a) + length w).
    { clear TT E. assert (G : forall l k, k < length (concat l) -> exists a w b, l = a ++ w :: b /\ length (concat a) <= k < length (concat a) + length (w : str)).
      { induction l as [|x l IH]; cbn; intros k Hk; [lia|]. rewrite app_length in Hk. destruct (Nat.lt_ge_cases k (length x)).
        - exists [], x, l. cbn. split; auto. lia.
        - destruct (IH (k - length x) ltac:(lia)) as (a & w & b & -> & B). exists (x :: a), w, b. cbn. rewrite app_length. split; auto. lia. }
      apply G; auto. }
    destruct F as (a & w & b & -> & B1 & B2). exists a, w, b. split; auto. split; auto. eapply TT; eauto.
  Qed.
  Lemma tiled_end ws t p v q : tiled ws t -> In v seps -> concat ws ++ t = p ++ v ++ q -> length p < length (concat ws) -> length p + length v <= length (concat ws).
  Proof.
    intros T Iv E L. destruct (tiled_in _ _ _ _ _ T Iv E L) as (a & w & b & -> & _ & L2). rewrite concat_app, app_length. cbn. rewrite app_length. lia.
  Qed.
  Lemma tiled_prefix ws w t : tiled (ws ++ [w]) t -> tiled ws (w ++ t).
  Proof.
    intros [TF TT]. apply Forall_app in TF as [TF _]. split; auto. intros a w0 b p v q -> Iv E. apply (TT a w0 (b ++ [w]) p v q); auto.
    - now rewrite <- app_assoc.
    - rewrite concat_app. cbn. now rewrite app_nil_r, <- app_assoc.
  Qed.
  (** the same run, taken from the right *)
  Lemma tiled_rlongest x ws w t : tiled (ws ++ [w]) t -> (forall p v q, In v seps -> x ++ concat (ws ++ [w]) ++ t = p ++ v ++ q -> length x <= length p) ->
    rlongest seps (x ++ concat ws) w.
  Proof.
    intros T X. assert (Iw : In w seps) by (destruct T as [F _]; apply Forall_app in F as [_ F]; now inversion F). split; auto.
    intros v p Iv E. destruct (Nat.le_gt_cases (length v) (length w)) as [|G]; auto. exfalso.
    assert (E2 : x ++ concat (ws ++ [w]) ++ t = p ++ v ++ t).
    { rewrite concat_app. cbn. rewrite app_nil_r, !app_assoc. now rewrite E. }
    pose proof (X _ _ _ Iv E2) as L. assert (LL := f_equal (@length _) E). rewrite !app_length in LL.
    symmetry in E2. destruct (app_len_inv _ _ _ _ _ (eq_sym E2) L) as (p' & -> & E3). rewrite !app_length in *.
    apply tiled_prefix in T. rewrite concat_app in E3. cbn in E3. rewrite app_nil_r, <- app_assoc in E3.
    pose proof (tiled_end ws (w ++ t) p' v t T Iv E3). pose proof (sep_pos _ Iw). lia.
  Qed.
  Lemma tiled_rrun x : forall ws t, ws <> [] -> tiled ws t -> (forall p v q, In v seps -> x ++ concat ws ++ t = p ++ v ++ q -> length x <= length p) -> rrun seps x (concat ws).
  Proof.
    induction ws as [|w ws IH] using rev_ind; [congruence|]. intros t _ T X. pose proof (tiled_rlongest x ws w t T X) as RL.
    rewrite concat_app. cbn. rewrite app_nil_r. destruct ws as [|w1 ws].
    - cbn in *. rewrite app_nil_r in RL. apply rrun_first; auto. intros S. apply ends_occ in S as (p & v & q & Iv & -> & Q). destruct q; [|discriminate].
      rewrite app_nil_r in *. specialize (X p v (w ++ t) Iv). rewrite app_nil_r, <- app_assoc in X. specialize (X eq_refl). rewrite app_length in X. pose proof (sep_pos _ Iv). lia.
    - apply rrun_more; [exact RL|]. apply IH with (t := w ++ t); [discriminate|now apply tiled_prefix|].
      intros p v q Iv E. apply (X p v q Iv). rewrite <- E, concat_app. cbn. now rewrite app_nil_r, <- !app_assoc.
  Qed.

  (** a cut and what follows it: no separator crosses the borders *)
  Definition clear (x w t : str) : Prop := forall p v q, In v seps -> x ++ w ++ t = p ++ v ++ q ->
    (length x <= length p /\ length p + length v <= length x + length w) \/ length x + length w <= length p.
  Lemma cut_clear (separate : bool) x w t : (forall i, i < length x -> ~ sep_at seps (x ++ w ++ t) i) -> one_split separate seps w t ->
    clear x w t /\ one_rsplit separate seps x w /\ (separate = false -> ~ sep_at seps t 0).
  Proof.
    intros LM O.
    assert (T : exists ws, ws <> [] /\ w = concat ws /\ tiled ws t /\ (separate = true -> ws = [w]) /\ (separate = false -> ~ sep_at seps t 0)).
    { destruct separate; cbn in O.
      - exists [w]. split; [discriminate|]. split; [cbn; now rewrite app_nil_r|]. split; [now apply longest_tiled|]. split; auto. discriminate.
      - destruct (run_tiled _ _ O) as (ws & A & B & C & D). exists ws. split; auto. split; auto. split; auto. split; auto. discriminate. }
    destruct T as (ws & NW & -> & T & T1 & T0).
    assert (X : forall p v q, In v seps -> x ++ concat ws ++ t = p ++ v ++ q -> length x <= length p).
    { intros p v q Iv E. destruct (Nat.le_gt_cases (length x) (length p)) as [|G]; auto. exfalso. apply (LM _ G). apply at_occ. eauto 7. }
    split; [|split; auto].
    - intros p v q Iv E. pose proof (X _ _ _ Iv E) as L. destruct (app_len_inv _ _ _ _ _ E L) as (p' & -> & E'). rewrite app_length in *.
      destruct (Nat.lt_ge_cases (length p') (length (concat ws))) as [G|G]; [|right; lia]. left. pose proof (tiled_end ws t p' v q T Iv E' G). lia.
    - destruct separate; cbn; [|eapply tiled_rrun; eauto]. rewrite (T1 eq_refl) in T, X. pose proof (tiled_rlongest x [] (concat ws) t T X) as R. cbn in R. now rewrite app_nil_r in R.
  Qed.
  Lemma clear_prefix x w t u : clear x w (t ++ u) -> clear x w t.
  Proof. intros C p v q Iv E. apply (C p v (q ++ u) Iv). rewrite app_assoc in E. rewrite !app_assoc in *. now rewrite E. Qed.
  (** a separator that ends beyond the cut lies beyond it *)
  Lemma clear_beyond x w t p v q : clear x w t -> In v seps -> x ++ w ++ t = p ++ v ++ q -> length q < length t -> exists p', p = x ++ w ++ p' /\ t = p' ++ v ++ q.
  Proof.
    intros C Iv E L. assert (LL := f_equal (@length _) E). rewrite !app_length in LL. destruct (C _ _ _ Iv E) as [[? ?]|G]; [lia|].
    rewrite app_assoc in E. destruct (app_len_inv _ _ _ _ _ E) as (p' & -> & E'); [rewrite app_length; lia|]. exists p'. rewrite <- app_assoc. auto.
  Qed.
  Lemma clear_rlongest x w t w0 : clear x w (t ++ w0) -> rlongest seps t w0 -> rlongest seps (x ++ w ++ t) w0.
  Proof.
    intros C [I0 L0]. split; auto. intros v p Iv E. rewrite <- !app_assoc in E. destruct (clear_beyond x w (t ++ w0) p v [] C Iv) as (p' & _ & E').
    - now rewrite app_nil_r.
    - rewrite app_length. pose proof (sep_pos _ I0). cbn. lia.
    - rewrite app_nil_r in E'. eauto.
  Qed.
  Lemma rrun_start t w : rrun seps t w -> exists v, In v seps /\ exists w1, w = v ++ w1.
  Proof.
    induction 1 as [t w [Iw _] _|t w w' _ _ (v & Iv & w1 & ->)]; [exists w; split; auto; exists []; now rewrite app_nil_r|exists v; split; auto; exists (w1 ++ w); now rewrite app_assoc].
  Qed.
  Lemma clear_rrun x w : forall t w0, rrun seps t w0 -> forall u, clear x w (t ++ w0 ++ u) -> ~ sep_at seps (t ++ w0 ++ u) 0 -> rrun seps (x ++ w ++ t) w0.
  Proof.
    induction 1 as [t w0 RL N|t w0 w' RL R IH]; intros u C S0.
    - apply rrun_first; [apply clear_rlongest; auto; apply (clear_prefix x w _ u); now rewrite <- app_assoc|].
      intros S. apply ends_occ in S as (p & v & q & Iv & E & Q). destruct q; [|discriminate].
      destruct t as [|c t].
      + apply S0. apply at_occ. exists [], w0, u. split; [apply RL|]. auto.
      + assert (C' : clear x w (c :: t)) by (apply (clear_prefix x w (c :: t) (w0 ++ u)); auto).
        destruct (clear_beyond x w (c :: t) p v [] C' Iv E) as (p' & _ & E'); [cbn; lia|]. apply N. apply ends_occ. exists p', v, []. auto.
    - apply rrun_more.
      + replace ((x ++ w ++ t) ++ w') with (x ++ w ++ (t ++ w')) by now rewrite <- !app_assoc. apply clear_rlongest; auto. apply (clear_prefix x w _ u).
        rewrite <- !app_assoc in *. exact C.
      + apply (IH (w0 ++ u)); rewrite <- !app_assoc in *; auto.
  Qed.

  Lemma prepend (separate : bool) n t l y : rsplits separate seps n t l y -> n = None -> forall x w, clear x w t -> one_rsplit separate seps x w ->
    (separate = false -> ~ sep_at seps t 0) -> sep_free seps x -> rsplits separate seps None (x ++ w ++ t) ((x, w) :: l) y.
  Proof.
    induction 1 as [s|n s F|n x0 w0 t y l Hn RM O R IH]; intros EN x w C OX S0 FX; [discriminate|subst n|subst n].
    - apply (rsplit_cut separate seps None s w x x []); auto; [discriminate| |cbn; now apply rsplit_none].
      intros i Hi S. apply ends_occ in S as (p & v & q & Iv & E & <-). destruct (clear_beyond _ _ _ _ _ _ C Iv E Hi) as (p' & _ & E').
      rewrite free_occ in F. exact (F _ _ _ Iv E').
    - assert (C1 : clear x w (t ++ w0)) by (apply (clear_prefix x w _ x0); now rewrite <- app_assoc).
      assert (C2 : clear x w t) by (apply (clear_prefix x w _ w0); auto).
      replace (x ++ w ++ t ++ w0 ++ x0) with ((x ++ w ++ t) ++ w0 ++ x0) by now rewrite <- !app_assoc.
      change ((x, w) :: l ++ [(y, w0)]) with (((x, w) :: l) ++ [(y, w0)]).
      assert (W0 : 0 < length w0).
      { destruct separate; cbn in O; [apply sep_pos; apply O|]. apply rrun_start in O as (v & Iv & w1 & ->). rewrite app_length. pose proof (sep_pos _ Iv). lia. }
      apply rsplit_cut; [discriminate| | |].
      + intros i Hi S. apply ends_occ in S as (p & v & q & Iv & E & <-). rewrite <- !app_assoc in E.
        destruct (clear_beyond _ _ _ _ _ _ C Iv E) as (p' & _ & E'); [rewrite !app_length; lia|]. apply (RM _ Hi). apply ends_occ. eauto 7.
      + destruct separate; cbn in *; [apply clear_rlongest; auto|]. apply (clear_rrun x w t w0 O x0); auto.
      + cbn. apply IH; auto. intros Hs S. apply (S0 Hs). apply at_occ in S as (p & v & q & Iv & -> & Hp). apply at_occ. exists p, v, (q ++ w0 ++ x0). rewrite <- !app_assoc. auto.
  Qed.
  Theorem left_is_right (separate : bool) n s l y : splits separate seps n s l y -> n = None -> rsplits separate seps None s l y.
  Proof.
    induction 1 as [s|n s F|n x w t l y Hn LM O S IH]; intros EN; [discriminate|now apply rsplit_none|subst n].
    destruct (cut_clear separate x w t LM O) as (C & OX & S0). apply (prepend separate None t l y (IH eq_refl) eq_refl x w C OX S0).
    apply free_occ. intros p v q Iv ->. apply (LM (length p)); [rewrite !app_length; pose proof (sep_pos _ Iv); lia|]. apply at_occ. exists p, v, (q ++ w ++ t). rewrite <- !app_assoc. auto.
  Qed.
End NoOverlap.
