From Verif Require Import EncodeModel EncodeSpec PyBaseProof PyStrProof.

(** * induction on values *)
Section ValInd.
  Context (P : val -> Prop).
  Context (HB : forall c b, P (VBytes c b)) (HS : forall c s, P (VStr c s))
          (HD : forall c l, Forall P (map fst l) -> Forall P (map snd l) -> P (VDict c l))
          (HL : forall c l, Forall P l -> P (VList c l)) (HT : forall c l, Forall P l -> P (VTuple c l))
          (HSt : forall c l, Forall P l -> P (VSet c l)) (HO : forall n, P (VOther n)).
  Fixpoint val_rec' (o : val) : P o :=
    let all := fix all (l : list val) : Forall P l := match l with [] => Forall_nil P | x :: t => Forall_cons x (val_rec' x) (all t) end in
    match o with
    | VBytes c b => HB c b
    | VStr c s => HS c s
    | VDict c l => HD c l
        ((fix all (l : list (val * val)) : Forall P (map fst l) := match l with [] => Forall_nil P | x :: t => Forall_cons (fst x) (val_rec' (fst x)) (all t) end) l)
        ((fix all (l : list (val * val)) : Forall P (map snd l) := match l with [] => Forall_nil P | x :: t => Forall_cons (snd x) (val_rec' (snd x)) (all t) end) l)
    | VList c l => HL c l (all l)
    | VTuple c l => HT c l (all l)
    | VSet c l => HSt c l (all l)
    | VOther n => HO n
    end.
End ValInd.

(** * == *)
Fixpoint vseqb (x y : list val) : bool := match x, y with [], [] => true | a :: x, b :: y => veqb a b && vseqb x y | _, _ => false end.
Fixpoint vpeqb (x y : list (val * val)) : bool :=
  match x, y with [], [] => true | (a, a') :: x, (b, b') :: y => veqb a b && veqb a' b' && vpeqb x y | _, _ => false end.
Lemma veqb_list c d x y : veqb (VList c x) (VList d y) = vseqb x y.
Proof. reflexivity. Qed.
Lemma veqb_tuple c d x y : veqb (VTuple c x) (VTuple d y) = vseqb x y.
Proof. reflexivity. Qed.
Lemma veqb_set c d x y : veqb (VSet c x) (VSet d y) = vseqb x y.
Proof. reflexivity. Qed.
Lemma veqb_dict c d x y : veqb (VDict c x) (VDict d y) = vpeqb x y.
Proof. reflexivity. Qed.
Lemma vseqb_refl l : Forall (fun o => veqb o o = true) l -> vseqb l l = true.
Proof. induction 1; cbn; auto. now rewrite H. Qed.
Lemma veqb_refl o : veqb o o = true.
Proof.
  induction o using val_rec'; cbn [veqb]; try apply str_eqb_refl; try (apply vseqb_refl; assumption); try apply Nat.eqb_refl.
  change (vpeqb l l = true). revert H H0. induction l as [|[k v] l IH]; cbn; auto. intros A B. apply Forall_cons_iff in A as [A1 A2], B as [B1 B2]. cbn in *. rewrite A1, B1. cbn. auto.
Qed.
Lemma vseqb_trans l : Forall (fun a => forall b d, veqb a b = true -> veqb b d = true -> veqb a d = true) l -> forall m n, vseqb l m = true -> vseqb m n = true -> vseqb l n = true.
Proof. induction 1; intros [|y m] [|z n]; cbn; auto; try discriminate. rewrite !andb_true_iff. intros [A B] [C D]. split; eauto. Qed.
Lemma veqb_trans a : forall b d, veqb a b = true -> veqb b d = true -> veqb a d = true.
Proof.
  induction a using val_rec'; intros [] []; cbn [veqb]; try discriminate; try (rewrite !str_eqb_eq; congruence); try (apply vseqb_trans; assumption); try (rewrite !Nat.eqb_eq; congruence).
  change (vpeqb l l0 = true -> vpeqb l0 l1 = true -> vpeqb l l1 = true). revert l0 l1 H H0.
  induction l as [|[k v] l IH]; intros [|[k' v'] m] [|[k'' v''] n]; cbn; auto; try discriminate. intros X Y. apply Forall_cons_iff in X as [X1 X2], Y as [Y1 Y2]. rewrite !andb_true_iff. intros [[A A'] B] [[C C'] D]. repeat split; eauto.
Qed.
Lemma vseqb_sym l : Forall (fun a => forall b, veqb a b = veqb b a) l -> forall m, vseqb l m = vseqb m l.
Proof. induction 1; intros [|y m]; cbn; auto. now rewrite H, IHForall. Qed.
Lemma veqb_sym a : forall b, veqb a b = veqb b a.
Proof.
  assert (S : forall s t, str_eqb s t = str_eqb t s). { intros. apply Bool.eq_true_iff_eq. rewrite !str_eqb_eq. split; congruence. }
  induction a using val_rec'; intros []; cbn [veqb]; auto; try (apply vseqb_sym; assumption); try apply Nat.eqb_sym.
  change (vpeqb l l0 = vpeqb l0 l). revert l0 H H0.
  induction l as [|[k v] l IH]; intros [|[k' v'] m]; cbn; auto. intros X Y. apply Forall_cons_iff in X as [X1 X2], Y as [Y1 Y2]. cbn in *. now rewrite X1, Y1, IH.
Qed.

(** * sets and dicts *)
Lemma distinct_snoc l x : distinct (l ++ [x]) = if existsb (fun y => veqb y x) l then distinct l else distinct l ++ [x].
Proof.
  induction l as [|a l IH]; cbn; auto. rewrite IH. destruct (veqb a x) eqn:E; cbn [orb].
  - destruct (existsb _ l); auto. rewrite filter_app. cbn. rewrite E. cbn. now rewrite app_nil_r.
  - destruct (existsb _ l); auto. rewrite filter_app. cbn. rewrite E. reflexivity.
Qed.
Lemma distinct_exists l x : existsb (fun y => veqb y x) (distinct l) = existsb (fun y => veqb y x) l.
Proof.
  induction l as [|a l IH]; cbn; auto. destruct (veqb a x) eqn:E; cbn [orb]; auto. rewrite <- IH. clear IH.
  induction (distinct l) as [|b m IH]; cbn; auto. destruct (veqb a b) eqn:F; cbn; rewrite ?IH; auto.
  destruct (veqb b x) eqn:G; auto. rewrite (veqb_trans _ _ _ F G) in E. discriminate.
Qed.
Lemma set_fold l : forall acc m, acc = distinct m -> fold_left set_add l acc = distinct (m ++ l).
Proof.
  induction l as [|x l IH]; intros acc m ->; cbn; [now rewrite app_nil_r|]. rewrite (IH _ (m ++ [x])); [now rewrite <- app_assoc|].
  unfold set_add. rewrite distinct_exists, distinct_snoc. destruct (existsb _ m); auto.
Qed.
Definition value_of (ks vs : list val) (k v : val) : Prop := exists i, (exists k', nth_error ks i = Some k' /\ veqb k k' = true) /\ nth_error vs i = Some v /\
  forall j k', j > i -> nth_error ks j = Some k' -> veqb k k' = false.
Definition is_dict (ks vs : list val) (d : list (val * val)) : Prop := map fst d = distinct ks /\ forall k v, In (k, v) d -> value_of ks vs k v.
Lemma value_fun ks vs k v v' : value_of ks vs k v -> value_of ks vs k v' -> v = v'.
Proof.
  intros (i & (k1 & A & E) & B & C) (j & (k2 & A' & E') & B' & C'). destruct (Nat.lt_trichotomy i j) as [L|[->|L]]; [|congruence|].
  - rewrite (C j k2 L A') in E'. discriminate.
  - rewrite (C' i k1 L A) in E. discriminate.
Qed.
Lemma is_dict_fun ks vs d d' : is_dict ks vs d -> is_dict ks vs d' -> d = d'.
Proof.
  intros [A B] [A' B']. assert (M : map fst d = map fst d') by congruence. clear A A'. revert d' M B'. induction d as [|[k v] d IH]; intros [|[k' v'] d'] [=]; auto. intros B'. subst k'.
  rewrite (value_fun ks vs k v v'); [|apply B; left; auto|apply B'; left; auto]. f_equal. apply IH; auto. intros k1 v1 I. apply B. now right. intros k1 v1 I. apply B'. now right.
Qed.
Lemma distinct_pairs l : ForallOrdPairs (fun a b => veqb a b = false) (distinct l).
Proof.
  assert (K : forall p m, ForallOrdPairs (fun a b => veqb a b = false) m -> ForallOrdPairs (fun a b => veqb a b = false) (filter p m)).
  { induction m; cbn; auto. inversion 1; subst. destruct (p a); auto. constructor; auto. rewrite Forall_forall in *. intros x I. apply filter_In in I. firstorder. }
  induction l as [|a l IH]; cbn; constructor; auto. apply Forall_forall. intros x I. apply filter_In in I as [_ I]. now apply negb_true_iff.
Qed.
Lemma dict_set_keys d k v : map fst (dict_set d k v) = set_add (map fst d) k.
Proof.
  unfold set_add. induction d as [|[k' v'] d IH]; cbn; auto. destruct (veqb k' k); cbn; auto. rewrite IH. destruct (existsb _ _); auto.
Qed.
Lemma dict_set_in d k v : ForallOrdPairs (fun a b => veqb a b = false) (map fst d) -> forall k' v', In (k', v') (dict_set d k v) ->
  veqb k' k = true /\ v' = v \/ veqb k' k = false /\ In (k', v') d.
Proof.
  induction d as [|[k1 v1] d IH]; cbn; intros F k' v'.
  - intros [[= <- <-]|[]]. left. split; auto. apply veqb_refl.
  - inversion F; subst. destruct (veqb k1 k) eqn:E; cbn.
    + intros [[= <- <-]|I]; auto. right. split; auto. rewrite Forall_forall in H1. specialize (H1 k' (in_map fst _ _ I)). cbn in H1. destruct (veqb k' k) eqn:G; auto.
      rewrite veqb_sym in G. rewrite (veqb_trans _ _ _ E G) in H1. discriminate.
    + intros [[= <- <-]|I]; auto. destruct (IH H2 _ _ I) as [?|[? ?]]; auto.
Qed.
Lemma nth_error_snoc {A} (l : list A) x i y : nth_error (l ++ [x]) i = Some y <-> nth_error l i = Some y \/ i = length l /\ x = y.
Proof.
  destruct (Nat.lt_ge_cases i (length l)) as [L|L].
  - rewrite nth_error_app1 by lia. split; auto. intros [?|[? _]]; auto. lia.
  - rewrite nth_error_app2 by lia. split.
    + destruct (i - length l) as [|[|n]] eqn:E; cbn; try discriminate. intros [= ->]. right. split; auto. lia.
    + intros [H|[-> ->]]; [|now rewrite Nat.sub_diag]. apply nth_error_None in L. congruence.
Qed.
Lemma dict_set_is_dict ks vs d k v : length ks = length vs -> is_dict ks vs d -> is_dict (ks ++ [k]) (vs ++ [v]) (dict_set d k v).
Proof.
  intros L [A B]. split.
  - rewrite dict_set_keys, A. unfold set_add. rewrite distinct_exists, distinct_snoc. destruct (existsb _ ks); auto.
  - intros k' v' I. apply dict_set_in in I; [|rewrite A; apply distinct_pairs]. destruct I as [[E ->]|[E I]].
    + exists (length ks). split; [|split].
      * exists k. split; auto. apply nth_error_snoc. auto.
      * apply nth_error_snoc. auto.
      * intros j k1 G Q. apply nth_error_snoc in Q as [Q|[-> ->]]; [|lia]. assert (j < length ks) by (apply nth_error_Some; congruence). lia.
    + destruct (B _ _ I) as (i & (k1 & Q & F) & R & S). exists i. split; [|split].
      * exists k1. split; auto. apply nth_error_snoc. auto.
      * apply nth_error_snoc. auto.
      * intros j k2 G W. apply nth_error_snoc in W as [W|[-> ->]]; eauto.
Qed.
