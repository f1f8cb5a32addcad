(** Proofs about the lines modifiers as generators. *)
From Verif Require Import PyStrProof DelimModel LinesModel LinesProof LazyModel.

Section Proof.
  Context (is_bytes : bool) (start_column tab_width : Z).
  Notation body := (body is_bytes start_column tab_width).
  Notation modify := (modify is_bytes start_column tab_width).
  Notation pipeline := (pipeline is_bytes start_column tab_width).
  Notation call := (call is_bytes).
  Notation calls := (calls is_bytes).

  (** ** the loop of one generator *)
  (** what the loop yields for the lines l, and its variables or its exception *)
  Fixpoint feed (m : modifier) (s : memory) (l : list pair) : list pair * (memory + exn) :=
    match l with
    | [] => ([], inl s)
    | p :: l => match body m s p with
                | Err e => ([], inr e)
                | Ok (ys, s) => let (zs, r) := feed m s l in (ys ++ zs, r)
                end
    end.
  Lemma feed_app m l1 : forall s l2, feed m s (l1 ++ l2) =
    match feed m s l1 with (ys, inl s) => let (zs, r) := feed m s l2 in (ys ++ zs, r) | (ys, inr e) => (ys, inr e) end.
  Proof.
    induction l1 as [|p l1 IH]; intros s l2; cbn [feed app]; [destruct (feed m s l2); reflexivity|].
    destruct (body m s p) as [[ys s']|e]; [|reflexivity]. rewrite IH. destruct (feed m s' l1) as [zs [s''|e]]; [|reflexivity]. destruct (feed m s'' l2). now rewrite app_assoc.
  Qed.
  (** all it yields if li yields l and then ends with up *)
  Definition whole (m : modifier) (s : memory) (li : generated pair) : generated pair :=
    match feed m s (fst li) with
    | (ys, inr e) => (ys, Some e)
    | (ys, inl s) => match snd li with Some e => (ys, Some e) | None => let (zs, e) := ending m s in (ys ++ zs, e) end
    end.
  Lemma whole_nil m s up : whole m s ([], up) = match up with Some e => ([], Some e) | None => ending m s end.
  Proof. unfold whole. cbn. destruct up; [reflexivity|]. destruct (ending m s); reflexivity. Qed.
  Lemma whole_cons m s p l up : whole m s (p :: l, up) = match body m s p with Err e => ([], Some e) | Ok (ys, s) => let (zs, e) := whole m s (l, up) in (ys ++ zs, e) end.
  Proof.
    unfold whole. cbn [fst snd feed]. destruct (body m s p) as [[ys s']|e]; [|reflexivity]. destruct (feed m s' l) as [zs [s''|e]]; [|reflexivity].
    destruct up; [reflexivity|]. destruct (ending m s''). now rewrite app_assoc.
  Qed.
  (** the modifiers that look at one line at a time *)
  Lemma whole_for_each m f (B : forall s p, body m s p = at_most_one s (f p)) (E : forall s, ending m s = ([], None)) l : forall s up, whole m s (l, up) = for_each f l up.
  Proof.
    induction l as [|p l IH]; intros s up; [rewrite whole_nil, E; now destruct up|]. rewrite whole_cons, B. cbn [for_each]. destruct (f p) as [[q|]|e]; cbn [at_most_one]; [| |reflexivity].
    - rewrite IH. unfold yield_. destruct (for_each f l up); reflexivity.
    - rewrite IH. destruct (for_each f l up); reflexivity.
  Qed.
  Lemma whole_sort lt r l : forall acc up, whole (Sort lt r) (Collected acc) (l, up) = lines_sort (match lt with None => by_line | Some lt => lt end) r (acc ++ l) up.
  Proof.
    induction l as [|p l IH]; intros acc up.
    - rewrite whole_nil. unfold lines_sort. destruct up; [reflexivity|]. cbn [ending]. now rewrite app_nil_r.
    - rewrite whole_cons. cbn [LazyModel.body]. rewrite IH, <- app_assoc. cbn [app]. destruct (lines_sort _ _ _ _); reflexivity.
  Qed.
  Lemma whole_comments markers quotes escape mq l : forall state up, whole (StripComments markers quotes escape mq) (InQuote state) (l, up) = comments_loop is_bytes markers quotes escape mq state l up.
  Proof.
    induction l as [|[i line] l IH]; intros state up; [rewrite whole_nil; cbn [comments_loop ending]; now destruct up|].
    rewrite whole_cons. cbn [LazyModel.body comments_loop]. set (sp := if _ && _ then _ else _). destruct sp as [[segs [e|]]|e]; [| |reflexivity].
    - destruct (find_comment _ _ _ _ _ _); reflexivity.
    - destruct (find_comment _ _ _ _ _ _) as [t|state' lq tq|]; [| |reflexivity].
      + destruct (clip_trailing i line (ByStr t)) as [q|e]; cbn [rmap]; [|reflexivity]. rewrite IH. unfold yield_. now destruct (comments_loop _ _ _ _ _ _ _ _).
      + destruct (negb (is_nil lq) && is_nil tq); [destruct (str_in lq mq); [|reflexivity]|]; rewrite IH; unfold yield_; now destruct (comments_loop _ _ _ _ _ _ _ _).
  Qed.
  Lemma whole_indent l : forall leadings indent blank up, whole StripIndent (Indents leadings indent blank) (l, up) = indent_loop is_bytes start_column tab_width leadings indent blank l up.
  Proof.
    induction l as [|[i line] l IH]; intros leadings indent blank up; [rewrite whole_nil; cbn [indent_loop ending]; now destruct up|].
    rewrite whole_cons. cbn [LazyModel.body indent_loop]. destruct (is_nil (lstrip is_bytes line)).
    - destruct (clip_trailing i line (ByStr line)) as [q|e]; cbn [rmap]; [|reflexivity]. rewrite IH. now destruct (indent_loop _ _ _ _ _ _ _ _).
    - destruct (clip_leading _ _ _ _) as [[i' line']|e]; [|reflexivity]. destruct (indent_step _ _ _ _ _) as [[ls ind]|e]; cbn [rmap]; [|reflexivity]. rewrite IH. reflexivity.
  Qed.
  Lemma call_modify m li : modify m li = match call m with Err e => Err e | Ok g => Ok (whole m (g_memory g) li) end.
  Proof.
    destruct li as [l up]. destruct m; cbn [LinesModel.modify LazyModel.call].
    - cbn [g_memory start]. f_equal. symmetry. now apply whole_for_each.
    - cbn [g_memory start]. f_equal. symmetry. now apply whole_for_each.
    - destruct (is_nil markers); [reflexivity|]. f_equal. symmetry. now apply whole_for_each.
    - f_equal. symmetry. now apply whole_for_each.
    - f_equal. symmetry. now apply whole_for_each.
    - f_equal. symmetry. apply whole_sort.
    - destruct (is_nil markers); [reflexivity|]. destruct (is_nil quotes && is_nil multiline_quotes); [f_equal; symmetry; apply whole_comments|]. destruct (split_quoted_strings _ _ _ _ _ _); [f_equal; symmetry; apply whole_comments|reflexivity].
    - f_equal. symmetry. now apply whole_for_each.
    - f_equal. symmetry. apply whole_indent.
    - f_equal. symmetry. now apply whole_for_each.
  Qed.
  Lemma call_fresh m g : call m = Ok g -> g = Gen m (start m) [] None.
  Proof.
    destruct m; cbn; try (now intros [= <-]).
    - destruct (is_nil markers); [discriminate|now intros [= <-]].
    - destruct (is_nil markers); [discriminate|]. destruct (is_nil quotes && is_nil multiline_quotes); [now intros [= <-]|]. destruct (split_quoted_strings _ _ _ _ _ _); [now intros [= <-]|discriminate].
  Qed.

  (** ** a stack of generators *)
  (** all it yields if the rest of the source is l, up *)
  Fixpoint total (gs : list gen) (li : generated pair) : generated pair :=
    match gs with
    | [] => li
    | Gen m s queue over :: gs => let (ys, e) := match over with Some e => ([], e) | None => whole m s (total gs li) end in (queue ++ ys, e)
    end.
  Lemma calls_total ms : forall gs li, pipeline ms (total gs li) = match calls ms gs with Err e => Err e | Ok gs => Ok (total gs li) end.
  Proof.
    induction ms as [|m ms IH]; intros gs li; cbn [LinesModel.pipeline LazyModel.calls]; [reflexivity|]. rewrite call_modify. destruct (call m) as [g|e] eqn:C; [|reflexivity].
    rewrite <- IH. apply call_fresh in C. subst g. cbn [total g_memory]. destruct (whole m (start m) (total gs li)) eqn:E. cbn [app]. reflexivity.
  Qed.
  (** what it yields without reading more than the lines l of the source, and the exception it raises then, if any; None if it wants to read on *)
  Fixpoint pushd (gs : list gen) (l : list pair) : list pair * option event :=
    match gs with
    | [] => (l, None)
    | Gen m s queue (Some e) :: gs => (queue, Some (match e with None => Stop | Some e => Raise e end))
    | Gen m s queue None :: gs =>
        let (xs, r) := pushd gs l in
        match feed m s xs with
        | (ys, inr e) => (queue ++ ys, Some (Raise e))
        | (ys, inl s) => match r with
                         | None => (queue ++ ys, None)
                         | Some Stop => let (zs, e) := ending m s in (queue ++ ys ++ zs, Some (match e with None => Stop | Some e => Raise e end))
                         | Some r => (queue ++ ys, Some r)
                         end
        end
    end.

  Lemma pushd_total gs : forall l l2 up,
    match pushd gs l with
    | (ys, None) => exists zs e, total gs (l ++ l2, up) = (ys ++ zs, e) /\ (forall e0, l2 = [] -> up = Some e0 -> zs = [] /\ e = Some e0)
    | (ys, Some Stop) => total gs (l ++ l2, up) = (ys, None)
    | (ys, Some (Raise e)) => total gs (l ++ l2, up) = (ys, Some e)
    | (ys, Some (Yield _)) => False
    end.
  Proof.
    induction gs as [|[m s queue over] gs IH]; intros l l2 up.
    - cbn [pushd total]. exists l2, up. split; auto.
    - cbn [pushd total]. destruct over as [e|].
      + rewrite app_nil_r. destruct e; reflexivity.
      + specialize (IH l l2 up). destruct (pushd gs l) as [xs r]. destruct r as [[p| |e]|]; [destruct IH| | |].
        * rewrite IH. unfold whole. cbn [fst snd]. destruct (feed m s xs) as [ys [s'|e]]; [|reflexivity]. destruct (ending m s') as [zs [e|]]; reflexivity.
        * rewrite IH. unfold whole. cbn [fst snd]. destruct (feed m s xs) as [ys [s'|e']]; reflexivity.
        * destruct IH as (zs & e & -> & H). unfold whole. cbn [fst snd]. rewrite feed_app. destruct (feed m s xs) as [ys [s'|e']]; [|reflexivity].
          destruct (feed m s' zs) as [ws [s''|e']] eqn:F; [destruct e as [e|]|].
          -- exists ws, (Some e). split; [now rewrite app_assoc|]. intros e0 L U. destruct (H e0 L U) as (-> & E). cbn in F. injection F as <- <-. auto.
          -- destruct (ending m s'') as [vs e]. exists (ws ++ vs), e. split; [now rewrite !app_assoc|]. intros e0 L U. destruct (H e0 L U) as (_ & E). discriminate.
          -- exists ws, (Some e'). split; [now rewrite app_assoc|]. intros e0 L U. destruct (H e0 L U) as (-> & E). cbn in F. discriminate.
  Qed.

  (** ** reading an endless source *)
  Section Stream.
    Context (src : nat -> pair).
    Definition part (k n : nat) : list pair := map src (seq k n).
    Lemma part_app k a b : part k (a + b) = part k a ++ part (k + a) b.
    Proof. unfold part. now rewrite seq_app, map_app. Qed.
    Lemma pushd_step m s below A p below' B ys s' :
      pushd below A = (p :: fst (pushd below' B), snd (pushd below' B)) -> body m s p = Ok (ys, s') ->
      pushd (Gen m s [] None :: below) A = pushd (Gen m s' ys None :: below') B.
    Proof.
      intros P E. cbn [pushd]. rewrite P. destruct (pushd below' B) as [xs r]. cbn [fst snd feed]. rewrite E. destruct (feed m s' xs) as [zs [s''|e]]; [|reflexivity].
      destruct r as [[q| |e]|]; try reflexivity. destruct (ending m s''); cbn [app]. now rewrite app_assoc.
    Qed.
    Lemma next_pushd : forall fuel gs k ev gs' k', next is_bytes start_column tab_width (fun n => Yield (src n)) fuel gs k = Some (ev, gs', k') ->
      k <= k' /\
      (forall l2, pushd gs (part k (k' - k) ++ l2) = match ev with Yield p => (p :: fst (pushd gs' l2), snd (pushd gs' l2)) | r => ([], Some r) end) /\
      (k < k' -> pushd gs (part k (k' - k - 1)) = ([], None)) /\
      ((forall p, ev <> Yield p) -> forall l2, pushd gs' l2 = ([], Some Stop)).
    Proof.
      induction fuel as [|fuel IH]; intros gs k ev gs' k' H; [discriminate|]. cbn [next] in H. destruct gs as [|[m s queue over] below].
      - injection H as <- <- <-. split; [lia|]. replace (S k - k) with 1 by lia. split; [reflexivity|]. split; [reflexivity|]. intros N. destruct (N _ eq_refl).
      - destruct queue as [|p queue].
        2: { injection H as <- <- <-. split; [lia|]. split; [|split; [lia|intros N; destruct (N _ eq_refl)]]. intros l2. replace (k - k) with 0 by lia. cbn [part map seq app pushd]. destruct over; [reflexivity|].
             destruct (pushd below l2) as [xs [[| |]|]]; destruct (feed m s xs) as [ys [s'|e']]; try reflexivity. destruct (ending m s'); reflexivity. }
        destruct over as [[e|]|].
        1, 2: injection H as <- <- <-; split; [lia|]; split; [reflexivity|]; split; [lia|reflexivity].
        destruct (next _ _ _ _ fuel below k) as [[[ev1 below'] k1]|] eqn:N1; [|discriminate]. destruct (IH _ _ _ _ _ N1) as (K1 & P1 & M1 & A1). clear N1. destruct ev1 as [p| |e].
        + destruct (body m s p) as [[ys s']|e] eqn:B.
          * destruct (IH _ _ _ _ _ H) as (K2 & P2 & M2 & A2). clear H. split; [lia|].
            assert (Q : forall B, pushd (Gen m s [] None :: below) (part k (k1 - k) ++ B) = pushd (Gen m s' ys None :: below') B) by (intros B'; eapply pushd_step; [apply P1|exact B]).
            split; [|split; [|exact A2]].
            -- intros l2. replace (k' - k) with ((k1 - k) + (k' - k1)) by lia. rewrite part_app, <- app_assoc, Q. replace (k + (k1 - k)) with k1 by lia. apply P2.
            -- intros L. destruct (Nat.eq_dec k1 k') as [<-|N].
               ++ cbn [pushd]. rewrite M1 by auto. reflexivity.
               ++ replace (k' - k - 1) with ((k1 - k) + (k' - k1 - 1)) by lia. rewrite part_app, Q. replace (k + (k1 - k)) with k1 by lia. apply M2. lia.
          * injection H as <- <- <-. split; [auto|]. split; [|split; [|reflexivity]].
            -- intros l2. cbn [pushd]. rewrite P1. cbn [feed]. now rewrite B.
            -- intros L. cbn [pushd]. rewrite M1 by auto. reflexivity.
        + destruct (ending m s) as [zs e] eqn:E. destruct (IH _ _ _ _ _ H) as (K2 & P2 & M2 & A2). clear H. split; [lia|].
          assert (Q : forall l B, pushd (Gen m s [] None :: below) (part k (k1 - k) ++ l) = pushd (Gen m s zs (Some e) :: below') B).
          { intros l B'. cbn [pushd]. rewrite P1. cbn [feed app]. rewrite E. reflexivity. }
          split; [|split; [|exact A2]].
          -- intros l2. replace (k' - k) with ((k1 - k) + (k' - k1)) by lia. rewrite part_app, <- app_assoc. rewrite Q with (B := part k1 (k' - k1) ++ l2). apply P2.
          -- intros L. destruct (Nat.eq_dec k1 k') as [<-|N].
             ++ cbn [pushd]. rewrite M1 by auto. reflexivity.
             ++ replace (k' - k - 1) with ((k1 - k) + (k' - k1 - 1)) by lia. rewrite part_app. rewrite Q with (B := part k1 (k' - k1 - 1)). apply M2. lia.
        + injection H as <- <- <-. split; [auto|]. split; [|split; [|reflexivity]].
          * intros l2. cbn [pushd]. rewrite P1. reflexivity.
          * intros L. cbn [pushd]. rewrite M1 by auto. reflexivity.
    Qed.
  End Stream.

  (** ** reading a source that ends *)
  Definition source_of (li : generated pair) (k : nat) : event :=
    match nth_error (fst li) k with
    | Some p => Yield p
    | None => if k =? length (fst li) then match snd li with Some e => Raise e | None => Stop end else Stop
    end.
  Definition rest (li : generated pair) (k : nat) : generated pair := (skipn k (fst li), if k <=? length (fst li) then snd li else None).
  Lemma rest_S li k : match source_of li k with
    | Yield p => rest li k = yield_ p (rest li (S k))
    | Raise e => rest li k = ([], Some e) /\ rest li (S k) = ([], None)
    | Stop => rest li k = ([], None) /\ rest li (S k) = ([], None)
    end.
  Proof.
    destruct li as [l up]. unfold source_of, rest, yield_. cbn [fst snd]. destruct (nth_error l k) as [p|] eqn:E.
    - assert (L : k < length l) by (apply nth_error_Some; congruence). replace (k <=? length l) with true by (symmetry; apply Nat.leb_le; lia). replace (S k <=? length l) with true by (symmetry; apply Nat.leb_le; lia). f_equal.
      clear L. revert k E. induction l as [|x l IH]; intros [|k] E; cbn in *; try discriminate; [congruence|]. now apply IH.
    - apply nth_error_None in E. replace (S k <=? length l) with false by (symmetry; apply Nat.leb_gt; lia). rewrite !skipn_all2 by lia. destruct (k =? length l) eqn:K.
      + apply Nat.eqb_eq in K. subst. rewrite Nat.leb_refl. destruct up; auto.
      + apply Nat.eqb_neq in K. replace (k <=? length l) with false by (symmetry; apply Nat.leb_gt; lia). auto.
  Qed.
  Lemma total_step m s below A p below' B ys s' : total below A = yield_ p (total below' B) -> body m s p = Ok (ys, s') ->
    total (Gen m s [] None :: below) A = total (Gen m s' ys None :: below') B.
  Proof.
    intros T E. cbn [total]. rewrite T. destruct (total below' B) as [xs e]. unfold yield_. cbn [fst snd]. rewrite whole_cons, E. destruct (whole m s' (xs, e)). reflexivity.
  Qed.
  Lemma next_total li : forall fuel gs k ev gs' k', next is_bytes start_column tab_width (source_of li) fuel gs k = Some (ev, gs', k') ->
    match ev with
    | Yield p => total gs (rest li k) = yield_ p (total gs' (rest li k'))
    | Raise e => total gs (rest li k) = ([], Some e) /\ total gs' (rest li k') = ([], None)
    | Stop => total gs (rest li k) = ([], None) /\ total gs' (rest li k') = ([], None)
    end.
  Proof.
    induction fuel as [|fuel IH]; intros gs k ev gs' k' H; [discriminate|]. cbn [next] in H. destruct gs as [|[m s queue over] below].
    - injection H as <- <- <-. exact (rest_S li k).
    - destruct queue as [|p queue].
      2: { injection H as <- <- <-. cbn [total]. destruct over; [reflexivity|]. destruct (whole _ _ _); reflexivity. }
      destruct over as [[e|]|].
      1, 2: injection H as <- <- <-; split; reflexivity.
      destruct (next _ _ _ _ fuel below k) as [[[ev1 below'] k1]|] eqn:N1; [|discriminate]. pose proof (IH _ _ _ _ _ N1) as P1. clear N1. destruct ev1 as [p| |e].
      + destruct (body m s p) as [[ys s']|e] eqn:B.
        * pose proof (IH _ _ _ _ _ H) as P2. rewrite (total_step m s below _ p below' _ ys s' P1 B). exact P2.
        * injection H as <- <- <-. split; [|reflexivity]. cbn [total]. rewrite P1. destruct (total below' (rest li k1)). unfold yield_. cbn [fst snd]. rewrite whole_cons, B. reflexivity.
      + destruct P1 as (P1 & _). destruct (ending m s) as [zs e] eqn:E. pose proof (IH _ _ _ _ _ H) as P2.
        assert (Q : total (Gen m s [] None :: below) (rest li k) = total (Gen m s zs (Some e) :: below') (rest li k1)).
        { cbn [total]. rewrite P1, whole_nil, E. cbn [app]. now rewrite app_nil_r. }
        rewrite Q. exact P2.
      + destruct P1 as (P1 & _). injection H as <- <- <-. split; [|reflexivity]. cbn [total]. rewrite P1, whole_nil. reflexivity.
  Qed.
  Lemma next_mono source : forall fuel gs k r, next is_bytes start_column tab_width source fuel gs k = Some r -> forall n, next is_bytes start_column tab_width source (n + fuel) gs k = Some r.
  Proof.
    induction fuel as [|fuel IH]; intros gs k r H n; [discriminate|]. rewrite Nat.add_succ_r. cbn [next] in *. destruct gs as [|[m s queue over] below]; auto. destruct queue as [|p queue]; auto. destruct over as [[e|]|]; auto.
    destruct (next _ _ _ _ fuel below k) as [[[ev1 below'] k1]|] eqn:N1; [|discriminate]. rewrite (IH _ _ _ N1 n). destruct ev1 as [p| |e]; auto.
    - destruct (body m s p) as [[ys s']|e]; auto.
    - destruct (ending m s); auto.
  Qed.
  Lemma next_length source : forall fuel gs k ev gs' k', next is_bytes start_column tab_width source fuel gs k = Some (ev, gs', k') -> length gs' = length gs.
  Proof.
    induction fuel as [|fuel IH]; intros gs k ev gs' k' H; [discriminate|]. cbn [next] in H. destruct gs as [|[m s queue over] below]; [now injection H as _ <- _|].
    destruct queue as [|p queue]; [|now injection H as _ <- _]. destruct over as [[e|]|]; [now injection H as _ <- _|now injection H as _ <- _|].
    destruct (next _ _ _ _ fuel below k) as [[[ev1 below'] k1]|] eqn:N1; [|discriminate]. apply IH in N1. destruct ev1 as [p| |e].
    - destruct (body m s p) as [[ys s']|e]; [apply IH in H; cbn in *; lia|]. injection H as _ <- _. cbn. lia.
    - destruct (ending m s). apply IH in H. cbn in *. lia.
    - injection H as _ <- _. cbn. lia.
  Qed.
  (** next() of generators over a source that ends comes to an end *)
  Lemma next_ends li : forall d gs k, length gs = d -> exists fuel r, next is_bytes start_column tab_width (source_of li) fuel gs k = Some r.
  Proof.
    induction d as [|d IHd]; intros gs k D; [destruct gs; [exists 1; eexists; reflexivity|discriminate]|]. destruct gs as [|[m s queue over] below]; [discriminate|]. injection D as D.
    remember (length (fst (total below (rest li k)))) as n eqn:En. revert m s queue over below D k En. induction n as [n IHn] using lt_wf_ind. intros m s queue over below D k En.
    destruct queue as [|p queue]; [|exists 1; eexists; reflexivity]. destruct over as [[e|]|]; [exists 1; eexists; reflexivity|exists 1; eexists; reflexivity|].
    destruct (IHd below k D) as (f1 & [[ev1 below'] k1] & N1). pose proof (next_total li _ _ _ _ _ _ N1) as T. pose proof (next_length _ _ _ _ _ _ _ N1) as L.
    assert (F : forall f2, next is_bytes start_column tab_width (source_of li) (f1 + f2) below k = Some (ev1, below', k1)) by (intros f2; rewrite Nat.add_comm; now apply next_mono).
    destruct ev1 as [p| |e].
    - destruct (body m s p) as [[ys s']|e] eqn:B.
      + destruct (IHn (length (fst (total below' (rest li k1))))) with (m := m) (s := s') (queue := ys) (over := @None (option exn)) (below := below') (k := k1) as (f2 & r & N2); [|congruence|reflexivity|].
        * rewrite En, T. unfold yield_. cbn [fst length]. lia.
        * exists (S (f1 + f2)), r. cbn [next]. rewrite F, B. apply next_mono. exact N2.
      + exists (S (f1 + 0)). eexists. cbn [next]. rewrite F, B. reflexivity.
    - destruct (ending m s) as [zs e] eqn:E. exists (S (f1 + 1)). destruct zs as [|z zs]; [destruct e as [e|]|].
      all: eexists; cbn [next]; rewrite F, E; rewrite Nat.add_1_r; cbn [next]; reflexivity.
    - exists (S (f1 + 0)). eexists. cbn [next]. rewrite F. reflexivity.
  Qed.

  (** ** nothing but blank lines is held back *)
  Definition empty (p : pair) : Prop := snd p = [].
  Definition tidy (s : memory) : Prop := match s with Indents _ _ b => Forall empty b | _ => True end.
  Lemma clip_trailing_empty i line q t : clip_trailing i line t = Ok q -> line = [] \/ t = ByStr line -> snd q = [].
  Proof.
    unfold clip_trailing. intros H L.
    assert (E : (if (clip_count t =? 0)%Z then [] else slice_to line (- clip_count t)) = []).
    { destruct (clip_count t =? 0)%Z eqn:Z; [reflexivity|]. destruct L as [->| ->]; [unfold slice_to; now rewrite !firstn_nil; destruct (_ <? _)%Z|].
      cbn [clip_count] in *. unfold slice_to. replace (- Z.of_nat (length line) <? 0)%Z with true by (apply Z.eqb_neq in Z; symmetry; apply Z.ltb_lt; lia). replace (Z.to_nat _) with 0 by lia. reflexivity. }
    rewrite E in H. cbn [is_nil] in H. unfold clip_all in H. destruct (ends_with _ _); [|discriminate]. now injection H as <-.
  Qed.
  Lemma set_indent_empty n l : Forall empty l -> Forall empty (map (set_indent n) l).
  Proof. induction 1; constructor; auto. Qed.
  Lemma tidy_body m s p ys s' : tidy s -> body m s p = Ok (ys, s') -> tidy s'.
  Proof.
    intros T. destruct m; cbn [LazyModel.body]; try (destruct (_ : result (option pair)) as [[q|]|e]; intros [= <- <-]; exact T);
    try (intros [= <- <-]; exact T).
    all: try (unfold at_most_one; match goal with |- match ?r with _ => _ end = _ -> _ => destruct r as [[q|]|e]; intros E; [injection E as <- <-|injection E as <- <-|discriminate E]; exact T end).
    - destruct s; try discriminate. intros [= <- <-]. exact I.
    - destruct s; try discriminate. destruct p as [i line]. destruct (if _ && _ then _ else _) as [[segs raised]|e]; [|discriminate]. destruct (find_comment _ _ _ _ _ _) as [t|st lq tq|]; [| |discriminate].
      + destruct raised; [discriminate|]. destruct (clip_trailing _ _ _); [|discriminate]. intros [= <- <-]. exact I.
      + destruct raised; [discriminate|]. destruct (negb (is_nil lq) && is_nil tq); [destruct (str_in lq multiline_quotes); [|discriminate]|]; intros [= <- <-]; exact I.
    - destruct s; try discriminate. destruct p as [i line]. destruct (is_nil (lstrip is_bytes line)).
      + destruct (clip_trailing i line (ByStr line)) as [q|e] eqn:C; [|discriminate]. intros [= <- <-]. cbn in *. apply Forall_app. split; auto. constructor; auto. eapply clip_trailing_empty; eauto.
      + destruct (clip_leading _ _ _ _) as [[i' line']|e]; [|discriminate]. destruct (indent_step _ _ _ _ _) as [[ls ind]|e]; [|discriminate]. intros [= <- <-]. constructor.
  Qed.
  Lemma empty_body m s p ys s' : (forall lt r, m <> Sort lt r) -> tidy s -> empty p -> body m s p = Ok (ys, s') -> Forall empty ys.
  Proof.
    intros NS T E. destruct p as [i line]. unfold empty in E. cbn [snd] in E. subst line.
    assert (one : forall f : pair -> result (option pair), (forall q, f (i, []) = Ok (Some q) -> empty q) -> forall s ys s', at_most_one s (f (i, [])) = Ok (ys, s') -> Forall empty ys).
    { intros f H s0 ys0 s0'. unfold at_most_one. destruct (f (i, [])) as [[q|]|e]; intros X; [injection X as <- _; constructor; auto|injection X as <- _; constructor|discriminate X]. }
    destruct m; cbn [LazyModel.body].
    - apply one. intros q. unfold rstrip_line. destruct separators as [seps|].
      + pose proof (multistrip_cases [] seps false true) as M. destruct (multistrip [] seps false true) as [r|e]; [|discriminate]. destruct M as (a & b & M & _). symmetry in M. apply app_eq_nil in M as (_ & M). apply app_eq_nil in M as (-> & _).
        cbn [str_eqb]. now intros [= <-].
      + cbn. now intros [= <-].
    - apply one. intros q. cbn. now intros [= <-].
    - apply one. intros q. unfold keep_if. destruct (negb _); intros [= <-]. reflexivity.
    - apply one. intros q. unfold keep_if. intros [= H]. destruct (if invert then _ else _) in H; [|discriminate]. now injection H as <-.
    - apply one. intros q. unfold keep_if. intros [= H]. destruct (if invert then _ else _) in H; [|discriminate]. now injection H as <-.
    - destruct (NS _ _ eq_refl).
    - destruct s; try discriminate. destruct (if _ && _ then _ else _) as [[segs raised]|e]; [|discriminate]. destruct (find_comment _ _ _ _ _ _) as [t|st lq tq|]; [| |discriminate].
      + destruct raised; [discriminate|]. destruct (clip_trailing _ _ _) as [q|] eqn:C; [|discriminate]. intros [= <- <-]. constructor; [|constructor]. eapply clip_trailing_empty; eauto.
      + destruct raised; [discriminate|]. destruct (negb (is_nil lq) && is_nil tq); [destruct (str_in lq multiline_quotes); [|discriminate]|]; intros [= <- <-]; repeat constructor.
    - intros [= <- _]. repeat constructor.
    - destruct s; try discriminate. cbn [lstrip is_nil]. destruct (clip_trailing _ _ _); [|discriminate]. intros [= <- _]. constructor.
    - apply one. intros q. cbn. discriminate.
  Qed.
  Lemma feed_tidy m l : forall s ys s', tidy s -> feed m s l = (ys, inl s') -> tidy s'.
  Proof.
    induction l as [|p l IH]; intros s ys s' T; cbn [feed]; [now intros [= _ <-]|]. destruct (body m s p) as [[zs s1]|e] eqn:B; [|discriminate]. destruct (feed m s1 l) as [ws [s2|e]] eqn:F; intros [= _ X]. subst s2. eapply IH; [|exact F]. eapply tidy_body; eauto.
  Qed.
  Lemma feed_empty m l : (forall lt r, m <> Sort lt r) -> Forall empty l -> forall s, tidy s -> Forall empty (fst (feed m s l)).
  Proof.
    intros NS. induction 1 as [|p l E _ IH]; intros s T; cbn [feed]; [constructor|]. destruct (body m s p) as [[zs s1]|e] eqn:B; [|constructor].
    specialize (IH s1 (tidy_body _ _ _ _ _ T B)). destruct (feed m s1 l) as [ws r]. cbn [fst] in *. apply Forall_app. split; auto. eapply empty_body; eauto.
  Qed.
  Lemma ending_empty m s : (forall lt r, m <> Sort lt r) -> tidy s -> Forall empty (fst (ending m s)).
  Proof. intros NS T. destruct m, s; cbn [ending fst]; try constructor; try (destruct (NS _ _ eq_refl)). now apply set_indent_empty. Qed.
  (** [a] is what is yielded if the source ends, [b] if it raises e0: the same, but for empty lines at the end *)
  Definition held_back (e0 : exn) (strict : bool) (a b : generated pair) : Prop :=
    a = b \/ exists xs held e, b = (xs, Some e0) /\ a = (xs ++ held, e) /\ Forall empty held /\ (strict = true -> held = []).
  Lemma whole_held e0 strict m a b : (forall lt r, m <> Sort lt r) -> (strict = true -> m <> StripIndent) -> held_back e0 strict a b -> held_back e0 strict (whole m (start m) a) (whole m (start m) b).
  Proof.
    intros NS NI [->|(xs & held & e & -> & -> & H & S)]; [now left|]. assert (T0 : tidy (start m)) by (destruct m; cbn; auto).
    unfold whole. cbn [fst snd]. rewrite feed_app. destruct (feed m (start m) xs) as [ys [s|e1]] eqn:F; [|now left]. right.
    assert (T : tidy s) by (eapply feed_tidy; eauto). pose proof (feed_empty m held NS H s T) as FE.
    destruct (feed m s held) as [zs r] eqn:F2. cbn [fst] in FE.
    assert (Z : strict = true -> zs = []) by (intros X; rewrite (S X) in F2; cbn in F2; congruence).
    destruct r as [s2|e1]; [destruct e as [e|]|].
    - exists ys, zs, (Some e). auto.
    - assert (T2 : tidy s2) by (eapply feed_tidy; eauto). pose proof (ending_empty m s2 NS T2) as EE. assert (EN : strict = true -> fst (ending m s2) = []) by (intros X; specialize (NI X); destruct m, s2; cbn; auto; destruct (NS _ _ eq_refl) || congruence).
      destruct (ending m s2) as [ws e]. cbn [fst] in *. exists ys, (zs ++ ws), e. split; auto. split; [now rewrite app_assoc|]. split; [apply Forall_app; auto|]. intros X. now rewrite (Z X), (EN X).
    - exists ys, zs, (Some e1). auto.
  Qed.
  Lemma pipeline_held e0 strict ms : forall a b, (forall lt r, ~ In (Sort lt r) ms) -> (strict = true -> ~ In StripIndent ms) -> held_back e0 strict a b ->
    match pipeline ms a, pipeline ms b with Ok a, Ok b => held_back e0 strict a b | Err e, Err e' => e = e' | _, _ => False end.
  Proof.
    induction ms as [|m ms IH]; intros a b NS NI H; cbn [LinesModel.pipeline]; auto. rewrite !call_modify. destruct (call m) as [g|e] eqn:C; [|reflexivity]. apply call_fresh in C. subst g. cbn [g_memory].
    apply IH; [intros lt r X; apply (NS lt r); now right|intros X Y; apply (NI X); now right|]. apply whole_held; auto; [intros lt r ->; apply (NS lt r); now left|intros X ->; apply (NI X); now left].
  Qed.
End Proof.
