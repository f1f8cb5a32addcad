(** re_partition and re_rpartition, exactly, for every pattern. *)
From Verif Require Import PyBaseProof Regex RefindModel RefindSpec RefindSpec2 RefindProof RefindProof2 RefindProps.
From Coq Require Import Lia.

Lemma is_prefix_app (w t : str) : is_prefix w t = true <-> exists y, t = w ++ y.
Proof.
  revert t. induction w as [|c w IH]; intros t; cbn; [split; eauto|]. destruct t as [|d t]; [split; [discriminate|intros (y & E); discriminate]|].
  rewrite andb_true_iff, IH. split.
  - intros [E (y & ->)]. apply N.eqb_eq in E. subst. exists y. reflexivity.
  - intros (y & E). injection E as -> ->. split; [apply N.eqb_refl|eauto].
Qed.
Lemma first_place_0 w y : first_place w (w ++ y) [] y.
Proof. split; auto. intros; cbn; lia. Qed.
Lemma find_first (w t : str) : match find w t with
  | Some i => exists x y, first_place w t x y /\ x = firstn i t /\ y = skipn (i + length w) t
  | None => forall x y, t <> x ++ w ++ y
  end.
Proof.
  induction t as [|c t IH]; cbn [find]; destruct (is_prefix w _) eqn:P.
  - apply is_prefix_app in P. destruct P as (y & E). exists [], y. split; [exact (eq_ind_r (fun t => first_place w t [] y) (first_place_0 w y) E)|]. split; auto. rewrite E. cbn [Nat.add]. rewrite skipn_app, skipn_all, Nat.sub_diag. reflexivity.
  - intros x y E. symmetry in E. apply app_eq_nil in E. destruct E as [-> E]. apply not_true_iff_false in P. apply P. apply is_prefix_app. exists y. auto.
  - apply is_prefix_app in P. destruct P as (y & E). exists [], y. split; [exact (eq_ind_r (fun t => first_place w t [] y) (first_place_0 w y) E)|]. split; auto. rewrite E. cbn [Nat.add]. rewrite skipn_app, skipn_all, Nat.sub_diag. reflexivity.
  - assert (Q : forall x' y', c :: t = x' ++ w ++ y' -> exists x, x' = c :: x /\ t = x ++ w ++ y').
    { intros [|d x] y' E; cbn in E; [apply not_true_iff_false in P; exfalso; apply P; apply is_prefix_app; eauto|]. injection E as -> E. eauto. }
    destruct (find w t) as [i|]; cbn [option_map].
    + destruct IH as (x & y & [F L] & -> & ->). exists (c :: firstn i t), (skipn (i + length w) t). split; auto. split.
      * rewrite F at 1. reflexivity.
      * intros x' y' E. apply Q in E. destruct E as (x & -> & E). cbn. apply L in E. lia.
    + intros x' y' E. apply Q in E. destruct E as (x & -> & E). eapply IH; eauto.
Qed.
Lemma rfind_last (w t : str) : match rfind w t with
  | Some i => exists x y, last_place w t x y /\ x = firstn i t /\ y = skipn (i + length w) t
  | None => forall x y, t <> x ++ w ++ y
  end.
Proof.
  induction t as [|c t IH]; cbn [rfind].
  - destruct (is_prefix w []) eqn:P.
    + apply is_prefix_app in P. destruct P as (y & E). exists [], y. split; [split; [auto|]|].
      * intros x' y' E'. symmetry in E'. apply app_eq_nil in E'. destruct E' as [-> _]. auto.
      * split; auto. rewrite E. cbn [Nat.add]. rewrite skipn_app, skipn_all, Nat.sub_diag. reflexivity.
    + intros x y E. symmetry in E. apply app_eq_nil in E. destruct E as [-> E]. apply not_true_iff_false in P. apply P. apply is_prefix_app. exists y. auto.
  - destruct (rfind w t) as [i|].
    + destruct IH as (x & y & [F L] & -> & ->). exists (c :: firstn i t), (skipn (i + length w) t). split; auto. split.
      * rewrite F at 1. reflexivity.
      * intros [|d x'] y' E; [cbn; lia|]. cbn in E. injection E as -> E. cbn. apply L in E. lia.
    + destruct (is_prefix w (c :: t)) eqn:P.
      * apply is_prefix_app in P. destruct P as (y & E). exists [], y. split; [split; [auto|]|].
        -- intros [|d x'] y' E'; [auto|]. cbn in E'. injection E' as -> E'. exfalso. eapply IH; eauto.
        -- split; auto. rewrite E. cbn [Nat.add]. rewrite skipn_app, skipn_all, Nat.sub_diag. reflexivity.
      * intros [|d x'] y' E; cbn in E; [apply not_true_iff_false in P; apply P; apply is_prefix_app; eauto|]. injection E as -> E. eapply IH; eauto.
Qed.

Section Exact.
  Context (p : pattern) (s : str) (SANE : sane p s).
  Notation n := (length s).
  Lemma match_here_range pos adv q e : match_here p s pos adv q = Some e -> q <= e <= n /\ (adv = true -> q = pos -> q < e).
  Proof.
    unfold match_here. destruct adv; cbn [andb].
    - destruct (Nat.eqb_spec q pos); intros H; [apply (proj2 SANE) in H; lia|apply (proj1 SANE) in H; split; [lia|congruence]].
    - intros H; apply (proj1 SANE) in H; split; [lia|discriminate].
  Qed.
  Lemma search_found count : forall adv pos, pos + count = S n ->
    match search_from p s adv pos count with
    | Some (a, e) => pos <= a /\ match_here p s pos adv a = Some e /\ (forall q, pos <= q < a -> match_here p s pos adv q = None)
    | None => forall q, pos <= q <= n -> match_here p s pos adv q = None
    end.
  Proof.
    induction count as [|count IH]; intros adv pos L; cbn [search_from]; [intros; lia|].
    destruct (if adv then _ else _) as [e|] eqn:E.
    - split; auto. split; [|intros; lia]. unfold match_here. rewrite Nat.eqb_refl, andb_true_r. exact E.
    - assert (Z : match_here p s pos adv pos = None) by (unfold match_here; rewrite Nat.eqb_refl, andb_true_r; exact E).
      assert (Q : forall q, S pos <= q -> match_here p s pos adv q = match_here p s (S pos) false q).
      { intros q H. unfold match_here. destruct (Nat.eqb_spec q pos); [lia|]. rewrite andb_false_r. reflexivity. }
      specialize (IH false (S pos) ltac:(lia)). destruct (search_from p s false (S pos) count) as [[a e]|].
      + destruct IH as (H1 & H2 & H3). split; [lia|]. split; [rewrite Q; auto|]. intros q H. destruct (Nat.eq_dec q pos) as [->|]; auto. rewrite Q by lia. apply H3. lia.
      + intros q H. destruct (Nat.eq_dec q pos) as [->|]; auto. rewrite Q by lia. apply IH. lia.
  Qed.
  Lemma finditer_found_from fuel : forall (adv : bool) pos, pos <= n -> 2 * (n - pos) + (if adv then 1 else 2) <= fuel -> found p s pos adv (finditer_from fuel p s adv pos).
  Proof.
    induction fuel as [|fuel IH]; intros adv pos L M; [destruct adv; lia|]. cbn [finditer_from].
    assert (Hc : pos + (S n - pos) = S n) by lia. pose proof (search_found (S n - pos) adv pos Hc) as S0. destruct (search_from _ _ _ _ _) as [[a e]|]; [|exact S0].
    destruct S0 as (H1 & H2 & H3). split; auto. split; auto. split; auto. pose proof (match_here_range _ _ _ _ H2) as [R1 R2].
    apply IH; [lia|]. destruct (Nat.eqb_spec a e).
    - destruct (Nat.eq_dec a pos); [|lia]. destruct adv; [specialize (R2 eq_refl); lia|lia].
    - destruct adv; lia.
  Qed.
  Lemma finditer_found : found p s 0 false (finditer p s).
  Proof. apply finditer_found_from; lia. Qed.

  (** matches one after the other *)
  Fixpoint ordered (pos : nat) (l : list span) : Prop :=
    match l with [] => True | (a, e) :: l => pos <= a /\ a <= e /\ e <= n /\ ordered e l end.
  Lemma found_ordered l : forall pos adv, found p s pos adv l -> ordered pos l.
  Proof.
    induction l as [|[a e] l IH]; intros pos adv H; cbn; auto. destruct H as (H1 & H2 & _ & H4). apply match_here_range in H2 as [R _].
    repeat split; try lia. eapply IH; eauto.
  Qed.
  Lemma between_app a e : a <= e -> e <= n -> s = firstn a s ++ between s a e ++ skipn e s.
  Proof. intros H H'. rewrite between_skipn; auto. now rewrite firstn_skipn. Qed.
  Lemma loop_exact count : forall l pos, ordered pos l -> pos <= n -> forall start, start <= pos ->
    match partition_loop s count l (skipn start s) with
    | Ok items => cuts s count l (skipn start s) items /\ Forall (fun m => ~ empty_match m) (firstn count l)
    | Err e => e = ValueError /\ Exists empty_match (firstn count l)
    end.
  Proof.
    induction count as [|count IH]; intros l pos O Lp start Ls; cbn [partition_loop].
    - split; constructor.
    - destruct l as [|[a e] l]; [split; [constructor|rewrite firstn_nil; constructor]|]. destruct O as (O1 & O2 & O3 & O4).
      unfold partition. destruct (group0 s (a, e)) as [|c w] eqn:G.
      + cbn [rbind]. split; auto. cbn [firstn]. left. unfold empty_match; cbn. apply (f_equal (@length _)) in G.
        rewrite group0_between in G. cbn [fst snd] in G. rewrite between_length in G by lia. cbn in G. lia.
      + rewrite <- G. pose proof (find_first (group0 s (a, e)) (skipn start s)) as F.
        assert (T : skipn start s = between s start a ++ group0 s (a, e) ++ skipn e s).
        { rewrite group0_between. cbn [fst snd]. rewrite between_skipn by lia. rewrite between_skipn; auto. lia. }
        destruct (find _ _) as [i|]; [|exfalso; exact (F _ _ T)]. destruct F as (x & y & FP & -> & ->). cbn [rbind].
        pose proof (proj2 FP _ _ T) as B. rewrite firstn_length, skipn_length in B. rewrite between_length in B by lia.
        assert (Gl : length (group0 s (a, e)) = e - a) by (rewrite group0_between; apply between_length; exact O3). assert (Gp : 0 < e - a) by (rewrite <- Gl, G; cbn; lia).
        rewrite Gl in *. rewrite skipn_skipn.
        specialize (IH l e O4 O3 (i + (e - a) + start) ltac:(lia)).
        destruct (partition_loop s count l _) as [items|err]; cbn [rmap].
        * destruct IH as [IH1 IH2]. split; [|cbn [firstn]; constructor; auto; unfold empty_match; cbn; lia]. rewrite skipn_skipn in FP.
          apply (cuts_match s count (a, e) l _ _ (skipn (i + (e - a) + start) s) items); auto. rewrite G. discriminate.
        * destruct IH as [-> IH2]. split; auto. cbn [firstn]. now right.
  Qed.
  Lemma re_partition_loop count : (0 <= count)%Z -> re_partition s p count = partition_loop s (Z.to_nat count) (finditer p s) s.
  Proof.
    intros L. unfold re_partition. destruct (Z.eqb_spec count 1) as [->|].
    - unfold re_search, finditer. replace (2 * n + 2) with (S (2 * n + 1)) by lia. cbn [finditer_from]. rewrite Nat.sub_0_r.
      destruct (search_from p s false 0 (S n)) as [[a e]|]; [|reflexivity]. change (Z.to_nat 1) with 1. cbn [partition_loop].
      destruct (partition _ s) as [[[x w] y]|]; reflexivity.
    - destruct (Z.eqb_spec count 0) as [->|]; [reflexivity|]. destruct (Z.ltb_spec count 0); [lia|reflexivity].
  Qed.

  (** from the right *)
  Lemma rloop_exact count : forall l stop, right_to_left l -> Forall (fun m => fst m <= snd m /\ snd m <= stop) l -> stop <= n -> forall have, stop <= have -> have <= n ->
    match rpartition_loop s count l (firstn have s) with
    | Ok items => rcuts s count l (firstn have s) items /\ Forall (fun m => ~ empty_match m) (firstn count l)
    | Err e => e = ValueError /\ Exists empty_match (firstn count l)
    end.
  Proof.
    induction count as [|count IH]; intros l stop R F Ls have Lh Ln; cbn [rpartition_loop].
    - split; constructor.
    - destruct l as [|[a e] l]; [split; [constructor|rewrite firstn_nil; constructor]|]. inversion F as [|? ? [F1 F2] F3]; subst. cbn [fst snd] in *.
      inversion R as [|? ? R1 R2]; subst. unfold rpartition. destruct (group0 s (a, e)) as [|c w] eqn:G.
      + cbn [rbind]. split; auto. cbn [firstn]. left. unfold empty_match; cbn. apply (f_equal (@length _)) in G.
        rewrite group0_between in G. cbn [fst snd] in G. rewrite between_length in G by lia. cbn in G. lia.
      + rewrite <- G. pose proof (rfind_last (group0 s (a, e)) (firstn have s)) as D.
        assert (T : firstn have s = firstn a s ++ group0 s (a, e) ++ between s e have).
        { rewrite group0_between. cbn [fst snd]. rewrite app_assoc, firstn_between by lia. rewrite firstn_between; auto. lia. }
        destruct (rfind _ _) as [i|]; [|exfalso; exact (D _ _ T)]. destruct D as (x & y & LP & -> & ->). cbn [rbind].
        pose proof (proj2 LP _ _ T) as B. rewrite !firstn_length in B.
        assert (Gl : length (group0 s (a, e)) = e - a) by (rewrite group0_between; apply between_length; lia). assert (Gp : 0 < e - a) by (rewrite <- Gl, G; cbn; lia).
        pose proof (proj1 LP) as LL. apply (f_equal (@length _)) in LL. rewrite !app_length, !firstn_length, Gl in LL.
        rewrite firstn_firstn.
        specialize (IH l a R1). specialize (IH ltac:(rewrite Forall_forall in *; intros m I; specialize (R2 m I); specialize (F3 m I); cbn in *; lia) ltac:(lia) (min i have) ltac:(lia) ltac:(lia)).
        destruct (rpartition_loop s count l _) as [items|err]; cbn [rmap].
        * destruct IH as [IH1 IH2]. split; [|cbn [firstn]; constructor; auto; unfold empty_match; cbn; lia]. rewrite firstn_firstn in LP.
          eapply (rcuts_match s count (a, e) l _ (firstn (min i have) s)); try eassumption; rewrite G; discriminate.
        * destruct IH as [-> IH2]. split; auto. cbn [firstn]. now right.
  Qed.
  Lemma re_rpartition_loop count : (0 <= count)%Z -> re_rpartition s p count = rpartition_loop s (Z.to_nat count) (fst (reversed_re_finditer p s)) s.
  Proof.
    intros L. unfold re_rpartition, take. destruct (reversed_right_to_left p s SANE) as (-> & _). cbn [rbind]. destruct (Z.eqb_spec count 1) as [->|].
    - destruct (fst (reversed_re_finditer p s)) as [|m ms]; [reflexivity|]. change (Z.to_nat 1) with 1. cbn [rpartition_loop].
      destruct (rpartition _ s) as [[[x w] y]|]; reflexivity.
    - destruct (Z.eqb_spec count 0) as [->|]; [reflexivity|]. destruct (Z.ltb_spec count 0); [lia|reflexivity].
  Qed.
End Exact.
Lemma cuts_text s count l t items : cuts s count l t items -> concat (map (item_text s) items) = t.
Proof.
  induction 1 as [ms t|c t|c m ms t x y items G [F _] C IH].
  - cbn. apply app_nil_r.
  - cbn [map concat]. rewrite (proj1 (repeat_text s (S c))). cbn. apply app_nil_r.
  - cbn [map concat item_text]. rewrite IH. symmetry. exact F.
Qed.
Lemma rcuts_text s count l t items : rcuts s count l t items -> concat (map (item_text s) items) = t.
Proof.
  induction 1 as [ms t|c t|c m ms t x y items G [F _] C IH].
  - cbn. apply app_nil_r.
  - rewrite map_app, concat_app, (proj2 (repeat_text s (S c))). cbn. apply app_nil_r.
  - rewrite map_app, concat_app, IH. cbn [map concat item_text]. rewrite app_nil_r. symmetry. exact F.
Qed.

(** C60 for every pattern: with ms the matches finditer yields, if none of the first count is
    empty the text is cut, for each of them, at the first place in the rest where the text of the
    match appears, and nothing is lost; otherwise ValueError is raised. *)
Theorem C60_exact (p : pattern) (s : str) (count : Z) : sane p s -> (0 <= count)%Z -> exists ms, found p s 0 false ms /\
  ((Forall (fun m => ~ empty_match m) (firstn (Z.to_nat count) ms) /\
    exists items, re_partition s p count = Ok items /\ cuts s (Z.to_nat count) ms s items /\ concat (map (item_text s) items) = s) \/
   (Exists empty_match (firstn (Z.to_nat count) ms) /\ re_partition s p count = Err ValueError)).
Proof.
  intros SANE L. exists (finditer p s). pose proof (finditer_found p s SANE) as F. split; auto. rewrite (re_partition_loop p s count L).
  pose proof (loop_exact s (Z.to_nat count) (finditer p s) 0 (found_ordered p s SANE _ _ _ F) (Nat.le_0_l _) 0 (le_n _)) as H. cbn [skipn] in H.
  destruct (partition_loop _ _ _ _) as [items|e].
  - left. destruct H as [C N]. split; auto. exists items. split; auto. split; auto. eapply cuts_text; eauto.
  - right. destruct H as [-> E]. auto.
Qed.
Print Assumptions C60_exact.
(** C62 for every pattern: the same from the right, with the matches of reversed_re_finditer (see
    C61) and the last places. *)
Theorem C62_exact (p : pattern) (s : str) (count : Z) : sane p s -> (0 <= count)%Z ->
  let ms := fst (reversed_re_finditer p s) in
  (Forall (fun m => ~ empty_match m) (firstn (Z.to_nat count) ms) /\
    exists items, re_rpartition s p count = Ok items /\ rcuts s (Z.to_nat count) ms s items /\ concat (map (item_text s) items) = s) \/
  (Exists empty_match (firstn (Z.to_nat count) ms) /\ re_rpartition s p count = Err ValueError).
Proof.
  intros SANE L ms. rewrite (re_rpartition_loop p s SANE count L). fold ms.
  destruct (reversed_right_to_left p s SANE) as (_ & G & R). fold ms in G, R.
  assert (F : Forall (fun m => fst m <= snd m /\ snd m <= length s) ms).
  { eapply Forall_impl; [|exact G]. intros m Gm. apply (genuine_range p s SANE) in Gm. tauto. }
  pose proof (rloop_exact s (Z.to_nat count) ms (length s) R F (le_n _) (length s) (le_n _) (le_n _)) as H. rewrite firstn_all in H.
  destruct (rpartition_loop _ _ _ _) as [items|e].
  - left. destruct H as [C N]. split; auto. exists items. split; auto. split; auto. eapply rcuts_text; eauto.
  - right. destruct H as [-> E]. auto.
Qed.
Print Assumptions C62_exact.
(** The cuts have only one possible result. *)
Lemma place_unique {A} (x y x' y' : list A) : x ++ y = x' ++ y' -> length x = length x' -> x = x' /\ y = y'.
Proof. revert x'. induction x as [|a x IH]; intros [|b x'] E L; try discriminate; auto. cbn in E, L. injection E as -> E. destruct (IH x' E) as [-> ->]; auto. Qed.
Theorem C60_cuts_unique : forall s count ms t i, cuts s count ms t i -> forall i', cuts s count ms t i' -> i = i'.
Proof.
  induction 1 as [ms t|c t|c m ms t x y items G [F Lx] C IH]; intros i' C'; inversion C' as [|?|? ? ? ? x' y' ? G' [F' Lx'] C1]; subst; auto.
  assert (Q : x = x' /\ group0 s m ++ y = group0 s m ++ y') by (apply place_unique; [congruence|]; specialize (Lx _ _ F'); specialize (Lx' _ _ eq_refl); lia).
  destruct Q as [-> Q]. apply app_inv_head in Q. subst y'. rewrite (IH _ C1). reflexivity.
Qed.
Print Assumptions C60_cuts_unique.
Theorem C62_cuts_unique : forall s count ms t i, rcuts s count ms t i -> forall i', rcuts s count ms t i' -> i = i'.
Proof.
  induction 1 as [ms t|c t|c m ms t x y items G [F Lx] C IH]; intros i' C'; inversion C' as [|?|? ? ? ? x' y' ? G' [F' Lx'] C1]; subst; auto.
  assert (Q : x = x' /\ group0 s m ++ y = group0 s m ++ y') by (apply place_unique; [congruence|]; specialize (Lx _ _ F'); specialize (Lx' _ _ eq_refl); lia).
  destruct Q as [-> Q]. apply app_inv_head in Q. subst y'. rewrite (IH _ C1). reflexivity.
Qed.
Print Assumptions C62_cuts_unique.
(** 'a$' in 'aba' *)
Example C60_exact_witness : finditer a_at_end (u "aba") = [(2, 3)] /\ cuts (u "aba") 1 [(2, 3)] (u "aba") [Text []; Match (2, 3); Text (u "ba")].
Proof.
  split; [reflexivity|]. apply (cuts_match (u "aba") 0 (2, 3) [] (u "aba") [] (u "ba") [Text (u "ba")]); [discriminate| |constructor].
  split; [reflexivity|]. intros; cbn; lia.
Qed.
