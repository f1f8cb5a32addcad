(** Proofs about merge_columns: which lines intrude; the rows. *)
From Verif Require Import LinesProof MergeModel MergeSpec.

Section Loops.
  Context (is_bytes : bool) (before after : nat).
  Definition covers (l : list (nat * nat)) (x : nat) : Prop := exists s e, In (s, e) l /\ s <= x <= e.
  (** newest first, with gaps *)
  Fixpoint spaced (l : list (nat * nat)) : Prop :=
    match l with [] => True | (s, e) :: r => s <= e /\ match r with [] => True | (_, e') :: _ => e' + 1 < s end /\ spaced r end.
  Definition near (P : nat -> Prop) (n x : nat) : Prop := exists m, m < n /\ P m /\ m <= x + before /\ x <= m + after.
  Definition covered (o : overflow_state) (n x : nat) : Prop :=
    covers (overflows o) x \/ (in_overflow o = true /\ overflow_start o <= x <= n - 1 + after).
  Definition head_ok (P : nat -> Prop) (o : overflow_state) (n : nat) : Prop :=
    match overflows o with
    | [] => in_overflow o = false -> forall m, m < n -> ~ P m
    | (s, e) :: _ => s <= n - before /\ (in_overflow o = true -> s <= overflow_start o) /\ e <= n - 1 + after /\
                     (in_overflow o = false -> overflow_end o = e /\ (exists m, m < n /\ P m /\ e = m + after) /\ forall m, m < n -> P m -> m + after <= e)
    end.
  Definition inv1 (P : nat -> Prop) (o : overflow_state) (n : nat) : Prop :=
    spaced (overflows o) /\ (forall x, covered o n x <-> near P n x) /\ head_ok P o n /\
    (in_overflow o = true -> 0 < n /\ P (n - 1) /\ overflow_start o <= n - 1 - before).

  Lemma add_inv P o n : inv1 P o n -> in_overflow o = true -> inv1 P (add_overflow (Ov (overflows o) true (overflow_start o) (n - 1 + after))) n.
  Proof.
    intros (S & C & H & I) E. destruct (I E) as (Hn & Pn & Hs). unfold covered, head_ok in *.
    unfold add_overflow. cbn [overflows overflow_start overflow_end].
    assert (MX : forall m, m < n -> P m -> m + after <= n - 1 + after) by (intros; lia).
    destruct (overflows o) as [|[s e] r] eqn:EO.
    - split; [|split; [|split]]; cbn [overflows in_overflow overflow_start overflow_end spaced].
      + repeat split. lia.
      + intros x. unfold covered. cbn [overflows in_overflow overflow_start]. rewrite <- C. split.
        * intros [(s' & e' & [Q|[]] & L) | [Q _]]; [|discriminate]. injection Q as <- <-. right. split; [exact E|lia].
        * intros [(s' & e' & [] & _) | [_ Q]]. left. exists (overflow_start o), (n - 1 + after). split; [left; reflexivity|lia].
      + unfold head_ok. cbn [overflows in_overflow overflow_start overflow_end]. repeat split; try lia; try discriminate. exists (n - 1). repeat split; auto; lia.
      + discriminate.
    - destruct H as (H1 & H2 & H3 & _). specialize (H2 E). cbn [spaced] in S. destruct S as (S1 & S2 & S3). cbn [fst snd].
      destruct (Nat.leb_spec (overflow_start o - 1) e) as [L | L].
      + split; [|split; [|split]]; cbn [overflows in_overflow overflow_start overflow_end spaced].
        * repeat split; [lia|exact S2|exact S3].
        * intros x. unfold covered. cbn [overflows in_overflow overflow_start]. rewrite <- C. split.
          -- intros [(s' & e' & [Q|Q] & L') | [Q _]]; [| |discriminate].
             ++ injection Q as <- <-. destruct (le_lt_dec x e); [left; exists s, e; split; [left; reflexivity|lia] | right; split; [exact E|lia]].
             ++ left. exists s', e'. split; [right; exact Q|exact L'].
          -- intros [(s' & e' & [Q|Q] & L') | [_ Q]].
             ++ injection Q as <- <-. left. exists s, (n - 1 + after). split; [left; reflexivity|lia].
             ++ left. exists s', e'. split; [right; exact Q|exact L'].
             ++ left. exists s, (n - 1 + after). split; [left; reflexivity|lia].
        * unfold head_ok. cbn [overflows in_overflow overflow_start overflow_end]. repeat split; try lia; try discriminate. exists (n - 1). repeat split; auto; lia.
        * discriminate.
      + split; [|split; [|split]]; cbn [overflows in_overflow overflow_start overflow_end spaced].
        * repeat split; [lia|lia|lia|exact S2|exact S3].
        * intros x. unfold covered. cbn [overflows in_overflow overflow_start]. rewrite <- C. split.
          -- intros [(s' & e' & [Q|Q] & L') | [Q _]]; [| |discriminate].
             ++ injection Q as <- <-. right. split; [exact E|lia].
             ++ left. exists s', e'. auto.
          -- intros [(s' & e' & Q & L') | [_ Q]].
             ++ left. exists s', e'. split; [right; exact Q|exact L'].
             ++ left. eexists _, _. split; [left; reflexivity|lia].
        * unfold head_ok. cbn [overflows in_overflow overflow_start overflow_end]. repeat split; try lia; try discriminate. exists (n - 1). repeat split; auto; lia.
        * discriminate.
  Qed.
  Lemma loop1_inv w lines : forall (P : nat -> Prop) n o, (forall k l, nth_error lines k = Some l -> P (n + k) <-> w < length (rstrip is_bytes l)) ->
    inv1 P o n -> exists o', loop1 is_bytes before after false w n lines o = Ok o' /\ inv1 P o' (n + length lines) /\ in_overflow o' = false.
  Proof.
    induction lines as [|l lines IH]; intros P n o HP I.
    - cbn [loop1 length]. rewrite Nat.add_0_r. eexists. split; [reflexivity|]. destruct (in_overflow o) eqn:E.
      + split; [apply add_inv; assumption|]. unfold add_overflow. cbn [overflows]. destruct (overflows o) as [|? ?]; [reflexivity|]. destruct (_ <=? _); reflexivity.
      + split; [exact I|exact E].
    - pose proof (HP 0 l eq_refl) as P0. rewrite Nat.add_0_r in P0.
      assert (HP' : forall k l', nth_error lines k = Some l' -> P (S n + k) <-> w < length (rstrip is_bytes l')).
      { intros k l' Q. replace (S n + k) with (n + S k) by lia. apply HP. exact Q. }
      cbn [loop1 length]. replace (n + S (length lines)) with (S n + length lines) by lia.
      destruct I as (S1 & C & H & J). destruct (Nat.ltb_spec w (length (rstrip is_bytes l))) as [L | L].
      + (* too wide *)
        assert (Pn : P n) by (apply P0; exact L). destruct (in_overflow o) eqn:E; cbn [negb andb].
        * apply IH; [exact HP'|]. destruct (J eq_refl) as (J1 & J2 & J3). split; [exact S1|]. split; [|split].
          -- intros x. unfold covered. rewrite E. split.
             ++ intros [Q | [_ Q]].
                ** destruct (proj1 (C x) (or_introl Q)) as (m & M1 & M2 & M3). exists m. repeat split; try assumption; lia.
                ** destruct (le_lt_dec x (n - 1 + after)).
                   { destruct (proj1 (C x)) as (m & M1 & M2 & M3); [right; split; [exact E|lia]|]. exists m. repeat split; try assumption; lia. }
                   exists n. repeat split; try assumption; lia.
             ++ intros (m & M1 & M2 & M3 & M4). destruct (Nat.eq_dec m n) as [-> | NE]; [right; split; [reflexivity|lia]|].
                destruct (proj2 (C x)) as [Q | [_ Q]]; [exists m; repeat split; try assumption; lia|left; exact Q|right; split; [reflexivity|lia]].
          -- unfold head_ok in *. rewrite E in *. destruct (overflows o) as [|[s e] r]; [discriminate|]. destruct H as (H1 & H2 & H3 & _). repeat split; try lia; try discriminate.
          -- intros _. replace (S n - 1) with n by lia. repeat split; try assumption; lia.
        * apply IH; [exact HP'|]. split; [exact S1|]. unfold head_ok in *. cbn [overflows in_overflow overflow_start overflow_end]. split; [|split].
          -- intros x. unfold covered. cbn [overflows in_overflow overflow_start]. split.
             ++ intros [Q | [_ Q]].
                ** destruct (proj1 (C x) (or_introl Q)) as (m & M1 & M2 & M3). exists m. repeat split; try assumption; lia.
                ** exists n. repeat split; try assumption; lia.
             ++ intros (m & M1 & M2 & M3 & M4). destruct (Nat.eq_dec m n) as [-> | NE]; [right; split; [reflexivity|lia]|].
                destruct (proj2 (C x)) as [Q | [Q _]]; [exists m; repeat split; try assumption; lia|left; exact Q|congruence].
          -- unfold head_ok. cbn [overflows in_overflow overflow_start]. destruct (overflows o) as [|[s e] r]; [discriminate|]. destruct H as (H1 & H2 & H3 & H4). repeat split; try lia; try discriminate.
          -- intros _. cbn [overflow_start]. replace (S n - 1) with n by lia. repeat split; try assumption; lia.
      + assert (Pn : ~ P n) by (intros Q; apply P0 in Q; lia). destruct (in_overflow o) eqn:E; cbn [negb andb].
        * pose proof (add_inv P o n (conj S1 (conj C (conj H (fun _ => J eq_refl)))) E) as A.
          destruct (add_overflow _) as [ov io os oe] eqn:EA. assert (EIO : io = false).
          { unfold add_overflow in EA. cbn [overflows overflow_start overflow_end] in EA. destruct (overflows o) as [|? ?]; [injection EA; auto|]. destruct (_ <=? _); injection EA; auto. }
          subst io. clear EA J H C S1. destruct A as (S1 & C & H & J). apply IH; [exact HP'|]. split; [exact S1|]. split; [|split; [|discriminate]].
          -- intros x. unfold covered in *. cbn [overflows in_overflow overflow_start] in *. split.
             ++ intros [Q | [Q _]]; [|discriminate]. destruct (proj1 (C x) (or_introl Q)) as (m & M1 & M2 & M3). exists m. repeat split; try assumption; lia.
             ++ intros (m & M1 & M2 & M3 & M4). destruct (Nat.eq_dec m n) as [-> | NE]; [contradiction|].
                destruct (proj2 (C x)) as [Q | [Q _]]; [exists m; repeat split; try assumption; lia|left; exact Q|discriminate].
          -- unfold head_ok in *. cbn [overflows in_overflow overflow_start overflow_end] in *. destruct ov as [|[s e] r].
             ++ intros _ m M1 M2. destruct (Nat.eq_dec m n) as [-> | NE]; [contradiction|]. apply (H eq_refl m); [lia|exact M2].
             ++ destruct H as (H1 & H2 & H3 & H4). destruct (H4 eq_refl) as (K1 & (m & K2 & K3 & K4) & K5). split; [lia|]. split; [discriminate|]. split; [lia|]. intros _. split; [exact K1|]. split.
                ** exists m. repeat split; try assumption. lia.
                ** intros m' M1 M2. destruct (Nat.eq_dec m' n) as [-> | NE]; [contradiction|]. apply K5; [lia|exact M2].
        * apply IH; [exact HP'|]. split; [exact S1|]. split; [|split].
          -- intros x. unfold covered in *. rewrite E in *. split.
             ++ intros [Q | [Q _]]; [|discriminate]. destruct (proj1 (C x) (or_introl Q)) as (m & M1 & M2 & M3). exists m. repeat split; try assumption; lia.
             ++ intros (m & M1 & M2 & M3 & M4). destruct (Nat.eq_dec m n) as [-> | NE]; [contradiction|].
                destruct (proj2 (C x)) as [Q | [Q _]]; [exists m; repeat split; try assumption; lia|left; exact Q|discriminate].
          -- unfold head_ok in *. rewrite E in *. destruct (overflows o) as [|[s e] r].
             ++ intros _ m M1 M2. destruct (Nat.eq_dec m n) as [-> | NE]; [contradiction|]. apply (H eq_refl m); [lia|exact M2].
             ++ destruct H as (H1 & H2 & H3 & H4). destruct (H4 eq_refl) as (K1 & (m & K2 & K3 & K4) & K5). split; [lia|]. split; [discriminate|]. split; [lia|]. intros _. split; [exact K1|]. split.
                ** exists m. repeat split; try assumption. lia.
                ** intros m' M1 M2. destruct (Nat.eq_dec m' n) as [-> | NE]; [contradiction|]. apply K5; [lia|exact M2].
          -- rewrite E. discriminate.
  Qed.
  Lemma loop1_raise w lines : forall n o, in_overflow o = false ->
    loop1 is_bytes before after true w n lines o = if existsb (fun l => w <? length (rstrip is_bytes l)) lines then Err OverflowError else Ok o.
  Proof.
    induction lines as [|l lines IH]; intros n o E; cbn [loop1 existsb]; rewrite E; [reflexivity|]. cbn [negb andb].
    destruct (w <? length (rstrip is_bytes l)); cbn [orb]; [reflexivity|]. apply IH, E.
  Qed.

  (** oldest first, with gaps *)
  Fixpoint spaced_up (l : list (nat * nat)) : Prop :=
    match l with [] => True | (s, e) :: r => s <= e /\ match r with [] => True | (s', _) :: _ => e + 1 < s' end /\ spaced_up r end.
  Lemma spaced_snoc l s e : spaced_up l -> s <= e -> (forall s' e', In (s', e') l -> e' + 1 < s) -> spaced_up (l ++ [(s, e)]).
  Proof.
    induction l as [|[s1 e1] l IH]; intros S L H; cbn [app spaced_up]; [auto|]. destruct S as (S1 & S2 & S3). split; [exact S1|]. split.
    - destruct l as [|[s2 e2] l]; cbn [app]; [apply (H s1 e1); left; reflexivity | exact S2].
    - apply IH; [exact S3|exact L|]. intros s' e' I. apply (H s' e'). right. exact I.
  Qed.
  Lemma spaced_below l s e : spaced ((s, e) :: l) -> forall s' e', In (s', e') l -> e' + 1 < s.
  Proof.
    revert s e. induction l as [|[s1 e1] l IH]; intros s e H s' e' I; [destruct I|]. cbn [spaced] in H. destruct H as (A & B & C & D & F).
    destruct I as [Q | I]; [injection Q as <- <-; exact B|]. pose proof (IH s1 e1 (conj C (conj D F)) s' e' I). lia.
  Qed.
  Lemma spaced_rev l : spaced l -> spaced_up (rev l).
  Proof.
    induction l as [|[s e] l IH]; intros S; [exact I|]. cbn [rev]. apply spaced_snoc.
    - apply IH. destruct S as (_ & _ & S). exact S.
    - apply S.
    - intros s' e' I. apply in_rev in I. apply (spaced_below _ _ _ S _ _ I).
  Qed.
  Definition inside (l : list (nat * nat)) (x : nat) : bool := existsb (fun p => (fst p <=? x) && (x <=? snd p)) l.
  Lemma inside_iff l x : inside l x = true <-> covers l x.
  Proof.
    unfold inside. rewrite existsb_exists. split.
    - intros ([s e] & I & H). apply andb_prop in H. destruct H as [A B]. apply Nat.leb_le in A, B. exists s, e. split; [exact I|cbn in *; lia].
    - intros (s & e & I & H). exists (s, e). split; [exact I|]. cbn [fst snd]. apply andb_true_intro. split; apply Nat.leb_le; lia.
  Qed.
  Lemma inside_before l s e x : spaced_up ((s, e) :: l) -> x < s -> inside ((s, e) :: l) x = false.
  Proof.
    revert s e. induction l as [|[s1 e1] l IH]; intros s e H L; unfold inside; cbn [existsb fst snd]; assert (LE : (s <=? x) = false) by (apply Nat.leb_gt; exact L); rewrite LE; cbn [andb orb]; try reflexivity.
    destruct H as (A & B & C). apply (IH s1 e1 C). lia.
  Qed.
  Lemma loop2_flags w lines : forall n cur pending io,
    spaced_up (match cur with Some c => c :: pending | None => pending end) ->
    match cur with Some (s, e) => n <= e + 1 /\ (io = true -> s <= n) | None => pending = [] /\ io = false end ->
    loop2 w n lines cur pending io =
    map (fun p => (if inside (match cur with Some c => c :: pending | None => pending end) (fst p) then snd p else ljust w (snd p), inside (match cur with Some c => c :: pending | None => pending end) (fst p)))
        (combine (seq n (length lines)) lines).
  Proof.
    induction lines as [|l lines IH]; intros n cur pending io S H; [reflexivity|]. cbn [loop2 length seq combine map fst snd].
    destruct cur as [[s e]|].
    - destruct H as (H1 & H2). destruct (Nat.ltb_spec e n) as [L | L].
      + (* past the end *)
        assert (Eq : n = e + 1) by lia. destruct S as (S1 & S2 & S3). destruct pending as [|[s2 e2] pending]; cbn [next_overflow].
        * assert (IO : inside [(s, e)] n = false). { unfold inside. cbn [existsb fst snd]. destruct (Nat.leb_spec n e); [lia|]. rewrite andb_false_r. reflexivity. }
          rewrite IO. f_equal. rewrite IH; [|exact I|split; reflexivity]. apply map_ext_in. intros [m l'] IN. cbn [fst snd].
          assert (IO2 : inside [(s, e)] m = false). { apply in_combine_l, in_seq in IN. unfold inside. cbn [existsb fst snd]. destruct (Nat.leb_spec m e); [lia|]. rewrite andb_false_r. reflexivity. }
          rewrite IO2. reflexivity.
        * destruct (Nat.leb_spec s2 n) as [L2 | L2]; [lia|].
          assert (DROP : forall m, n <= m -> inside ((s, e) :: (s2, e2) :: pending) m = inside ((s2, e2) :: pending) m).
          { intros m M. unfold inside. cbn [existsb fst snd]. destruct (Nat.leb_spec m e); [lia|]. rewrite andb_false_r. reflexivity. }
          rewrite (DROP n) by lia. rewrite (inside_before _ _ _ _ S3 L2). f_equal. rewrite IH; [|exact S3|].
          -- apply map_ext_in. intros [m l'] IN. cbn [fst snd]. apply in_combine_l, in_seq in IN. rewrite (DROP m) by lia. reflexivity.
          -- destruct S3 as (S3 & _). split; [lia|discriminate].
      + assert (IO : inside ((s, e) :: pending) n = (if s <=? n then true else io)).
        { destruct (Nat.leb_spec s n) as [L2 | L2].
          - unfold inside. cbn [existsb fst snd]. destruct (Nat.leb_spec s n); [|lia]. destruct (Nat.leb_spec n e); [|lia]. reflexivity.
          - destruct io; [specialize (H2 eq_refl); lia|]. apply (inside_before _ _ _ _ S L2). }
        rewrite <- IO. f_equal. apply IH; [exact S|]. split; [lia|]. intros Q. rewrite Q in IO. destruct (Nat.leb_spec s n) as [L2 | L2]; [lia|]. symmetry in IO. specialize (H2 IO). lia.
    - destruct H as [-> ->]. f_equal. apply IH; [exact S|]. split; reflexivity.
  Qed.
End Loops.
