(** Proofs about splitting in parts. *)
From Verif Require Import SplitModel SplitSpec SplitSpec7 SplitProof SplitProof2 SplitProof3 SplitProof6 RegexProof PyBaseProof PyStrProof.

(** continuing after a limit *)
Lemma splits_continue (separate : bool) seps n : forall s l y, splits separate seps (Some n) s l y ->
  forall m l' y', splits separate seps m y l' y' -> splits separate seps (option_map (plus n) m) s (l ++ l') y'.
Proof.
  induction n as [|n IH]; intros s l y S m l' y' S'.
  - inversion S; subst; cbn; destruct m; cbn in *; auto; try congruence.
  - inversion S as [| n' s' F|n' x w t l0 y0 N L O S0]; subst.
    + inversion S' as [|n' s' F'|n' x w t l0 y0 N L O S0]; subst; cbn; try now apply split_none.
      exfalso. apply (F (length x)). apply one_split_sep in O. rewrite (sep_at_skip seps x (w ++ t) 0) in * || idtac.
      replace (length x) with (length x + 0) by lia. now apply sep_at_skip.
    + cbn in *. apply split_cut; auto; [destruct m; cbn; congruence|].
      specialize (IH _ _ _ S0 _ _ _ S'). destruct m; cbn in *; exact IH.
Qed.
Section Parts.
  Context (seps : list str) (V : Forall (fun w : str => w <> []) seps).

  Lemma not_across_suffix p t b : ~ across seps (p ++ t) b -> ~ across seps t b.
  Proof. intros H (p' & w1 & w2 & q & N1 & N2 & I & -> & ->). apply H. exists (p ++ p'), w1, w2, q. rewrite app_assoc. auto. Qed.
  Lemma within a b w t : ~ across seps a b -> In w seps -> a <> [] -> a ++ b = w ++ t -> exists t', a = w ++ t' /\ t = t' ++ b.
  Proof.
    intros H I N E. destruct (Nat.le_gt_cases (length w) (length a)) as [L|L].
    - symmetry in E. destruct (app_len_inv _ _ _ _ _ E L) as (m & -> & ->). exists m. auto.
    - destruct (app_len_inv _ _ _ _ _ E) as (m & -> & ->); [lia|]. exfalso. apply H. exists [], a, m, t. cbn.
      repeat split; auto. intros ->. rewrite app_nil_r in L. lia.
  Qed.
  Lemma sep_at_before a b i : ~ across seps a b -> i < length a -> sep_at seps (a ++ b) i -> sep_at seps a i.
  Proof.
    intros H L (w & t & I & E). rewrite skipn_app in E. replace (i - length a) with 0 in E by lia. cbn in E.
    destruct (within (skipn i a) b w t) as (t' & E1 & ->); auto.
    - apply (not_across_suffix (firstn i a)). now rewrite firstn_skipn.
    - intros E0. apply (f_equal (@length _)) in E0. rewrite skipn_length in E0. cbn in E0. lia.
    - exists w, t'. auto.
  Qed.
  Lemma longest_before w t b : ~ across seps (w ++ t) b -> longest seps w t -> longest seps w (t ++ b).
  Proof.
    intros H [I M]. split; [exact I|]. intros w' t' I' E. rewrite app_assoc in E.
    destruct (within (w ++ t) b w' t') as (t1 & E1 & _); eauto.
    rewrite Forall_forall in V. apply V in I. destruct w; [congruence|discriminate].
  Qed.
  Lemma longest_end w b : longest seps w [] -> ~ across seps w b -> longest seps w b.
  Proof. intros L H. apply (longest_before w [] b); auto. now rewrite app_nil_r. Qed.
  Lemma run_before w t : run seps w t -> forall b, ~ across seps (w ++ t) b -> t <> [] \/ ~ sep_at seps b 0 -> run seps w (t ++ b).
  Proof.
    induction 1 as [w t L N|w w' t L R IH]; intros b H C.
    - apply run_last; [now apply longest_before|]. intros S. destruct t as [|c t]; [destruct C as [C|C]; [congruence|now apply C]|].
      apply N. apply (sep_at_before _ b); auto; [|cbn; lia]. now apply not_across_suffix in H.
    - apply run_more; [rewrite app_assoc; apply longest_before; auto; now rewrite app_assoc|]. apply IH; auto.
      apply (not_across_suffix w). now rewrite app_assoc.
  Qed.
  Lemma run_join w t0 : run seps w t0 -> t0 = [] -> forall w' t, ~ across seps w (w' ++ t) -> run seps w' t -> run seps (w ++ w') t.
  Proof.
    induction 1 as [w t0 L N|w w1 t0 L R IH]; intros -> w' t H R'.
    - apply run_more; auto. apply longest_end; auto.
    - rewrite <- app_assoc. apply run_more; [|apply IH; auto; now apply not_across_suffix in H].
      rewrite app_nil_r in L. rewrite <- app_assoc. apply longest_before; auto.
  Qed.
  Lemma one_split_before (separate : bool) w t b : one_split separate seps w t -> ~ across seps (w ++ t) b -> separate = true \/ t <> [] \/ ~ sep_at seps b 0 ->
    one_split separate seps w (t ++ b).
  Proof. destruct separate; cbn; intros O H C; [now apply longest_before|apply run_before; auto; intuition congruence]. Qed.

  (** the two lists of cuts put together *)
  Definition cuts_joined (separate : bool) (l : list (str * str)) (x : str) (l' : list (str * str)) : list (str * str) :=
    match l' with
    | [] => l
    | (y, w') :: t =>
        match separate, x, y, rev l with
        | false, [], [], (z, w) :: r => rev r ++ [(z, w ++ w')] ++ t
        | _, _, _, _ => l ++ (x ++ y, w') :: t
        end
    end.
  Definition last_joined (x : str) (l' : list (str * str)) (y : str) : str := match l' with [] => x ++ y | _ => y end.

  Lemma joined_cons (separate : bool) p l x l' : l <> [] -> cuts_joined separate (p :: l) x l' = p :: cuts_joined separate l x l'.
  Proof.
    intros N. destruct l' as [|[y w'] t]; [reflexivity|]. cbn [cuts_joined rev].
    assert (exists q r, rev l = q :: r) as (q & r & E). { destruct (rev l) eqn:E; [|eauto]. apply (f_equal (@rev _)) in E. rewrite rev_involutive in E. cbn in E. congruence. }
    destruct separate; [reflexivity|]. destruct x; [|reflexivity]. destruct y; [|reflexivity]. rewrite E. cbn [app]. destruct q as [z w].
    rewrite rev_app_distr. reflexivity.
  Qed.

  Lemma splits_free (separate : bool) y b l' y' : sep_free seps y -> splits separate seps None b l' y' -> ~ across seps y b ->
    splits separate seps None (y ++ b) (match l' with [] => [] | (z, w) :: t => (y ++ z, w) :: t end) (last_joined y l' y').
  Proof.
    intros F S H. inversion S as [|n s F'|n x w t l0 y0 N L O S0]; subst.
    - apply split_none. intros i A. destruct (Nat.lt_ge_cases i (length y)) as [G|G].
      + apply (F i). now apply (sep_at_before y y').
      + apply (F' (i - length y)). rewrite <- (sep_at_skip seps y). now replace (length y + (i - length y)) with i by lia.
    - cbn [last_joined]. rewrite app_assoc. apply split_cut; auto; try discriminate.
      intros i G A. rewrite app_length in G. rewrite <- app_assoc in A. destruct (Nat.lt_ge_cases i (length y)) as [G'|G'].
      + apply (F i). now apply (sep_at_before y (x ++ w ++ t)).
      + apply (L (i - length y)); [lia|]. rewrite <- (sep_at_skip seps y). now replace (length y + (i - length y)) with i by lia.
  Qed.

  Lemma splits_nil (separate : bool) n l y : splits separate seps n [] l y -> l = [] /\ y = [].
  Proof.
    intros S. remember (@nil chr) as s eqn:E in S. destruct S as [| |n x w t l y N L O S]; [auto|auto|].
    apply app_eq_nil in E as [_ E]. apply app_eq_nil in E as [-> ->]. apply one_split_sep in O as (v & r & I & E). cbn in E.
    symmetry in E. apply app_eq_nil in E as [E _]. subst v.
    rewrite Forall_forall in V. now apply V in I.
  Qed.
  Lemma splits_parts (separate : bool) n a l y : splits separate seps n a l y -> n = None ->
    forall b l' y', splits separate seps None b l' y' -> ~ across seps a b -> splits separate seps None (a ++ b) (cuts_joined separate l y l') (last_joined y l' y').
  Proof.
    induction 1 as [|n s F|n x w t l y N L O S IH]; intros E b l' y' S' H; [discriminate| |].
    - pose proof (splits_free separate s b l' y' F S' H) as R. replace (cuts_joined separate [] s l') with (match l' with [] => [] | (z, w) :: t => (s ++ z, w) :: t end); [exact R|].
      destruct l' as [|[z w] t]; [reflexivity|]. cbn. now destruct separate, s, z.
    - subst n. cbn [option_map] in S. specialize (IH eq_refl b l' y' S').
      assert (Ht : ~ across seps t b) by (apply (not_across_suffix (x ++ w)); now rewrite <- app_assoc).
      specialize (IH Ht). rewrite <- !app_assoc.
      assert (LM : forall r, ~ across seps (x ++ w ++ t) r -> forall i, i < length x -> ~ sep_at seps (x ++ w ++ t ++ r) i).
      { intros r Hr i G A. apply (L i G). apply (sep_at_before _ r); auto; [rewrite app_length; lia|]. now rewrite <- !app_assoc. }
      assert (D : separate = true \/ t <> [] \/ ~ sep_at seps b 0 \/ separate = false /\ t = [] /\ sep_at seps b 0).
      { destruct separate; auto. destruct t; [|right; left; discriminate]. right. right. destruct (tok seps b) as [[? ?]|] eqn:T.
        - right. apply tok_some in T as [-> I]. repeat split. exists s, s0. auto.
        - left. now apply tok_none in T. }
      destruct D as [D|[D|[D|(-> & -> & A)]]].
      1-3: assert (O' : one_split separate seps w (t ++ b)) by (apply one_split_before; auto; now apply not_across_suffix in H).
      1-3: assert (E : cuts_joined separate ((x, w) :: l) y l' = (x, w) :: cuts_joined separate l y l');
        [|rewrite E; apply split_cut; auto; discriminate].
      1-3: destruct l as [|q l]; [|apply joined_cons; discriminate].
      1-3: inversion S; subst; destruct l' as [|[z w'] t']; [reflexivity|]; cbn.
      + reflexivity.
      + destruct separate; [reflexivity|]. destruct y; [congruence|reflexivity].
      + destruct separate; [reflexivity|]. destruct y; [|reflexivity]. destruct z; [|reflexivity].
        exfalso. apply D. inversion S' as [| |? ? ? ? ? ? ? ? O1 ?]; subst. now apply one_split_sep in O1.
      + destruct (splits_nil _ _ _ _ S) as [-> ->]. inversion S' as [|? ? F'|? x' w' t' l0 y0 N' L' O' S0]; subst; [exfalso; now apply (F' 0)|].
        destruct x' as [|c x']; [|exfalso; apply (L' 0); [cbn; lia|exact A]].
        cbn [cuts_joined rev app last_joined]. match goal with |- splits _ _ _ ?s _ _ => replace s with (x ++ (w ++ w') ++ t') by (cbn; now rewrite <- ?app_assoc) end. apply (split_cut false seps None x (w ++ w') t' l0 y'); auto; try discriminate.
        -- rewrite <- app_assoc. specialize (LM (w' ++ t')). cbn in LM. now apply LM.
        -- cbn [one_split] in *. apply (run_join w [] O); auto. rewrite app_nil_r in H. now apply not_across_suffix in H.
  Qed.
End Parts.
