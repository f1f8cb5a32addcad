From Verif Require Import EncodeModel EncodeSpec EncodeProof PyBaseProof PyStrProof.

Lemma Forall2_length {A B} (R : A -> B -> Prop) l l' : Forall2 R l l' -> length l = length l'.
Proof. induction 1; cbn; auto. Qed.
Section Enc.
  Context (encode : str -> result str) (construct : nat -> val -> result val).
  Local Notation ev := (encode_value encode construct).
  Fixpoint all_ok (l : list val) : result (list val) := match l with [] => Ok [] | x :: t => rbind (ev x) (fun x => rmap (cons x) (all_ok t)) end.
  Fixpoint all_pairs (l : list (val * val)) : result (list (val * val)) :=
    match l with [] => Ok [] | (k, v) :: t => rbind (ev k) (fun k => rbind (ev v) (fun v => rmap (cons (k, v)) (all_pairs t))) end.
  Lemma ev_list c l : ev (VList c l) = rbind (all_ok l) (fun l => make construct c (VList 0 l)).
  Proof. reflexivity. Qed.
  Lemma ev_tuple c l : ev (VTuple c l) = rbind (all_ok l) (fun l => make construct c (VTuple 0 l)).
  Proof. reflexivity. Qed.
  Lemma ev_set c l : ev (VSet c l) = rbind (all_ok l) (fun l => make construct c (VSet 0 (fold_left set_add l []))).
  Proof.
    cbn [encode_value]. generalize (@nil val). induction l as [|x l IH]; intros s; cbn; auto. destruct (ev x); cbn; auto. rewrite IH. destruct (all_ok l); reflexivity.
  Qed.
  Lemma ev_dict c l : ev (VDict c l) = rbind (all_pairs l) (fun l => make construct c (VDict 0 (fold_left (fun d p => dict_set d (fst p) (snd p)) l []))).
  Proof.
    cbn [encode_value]. generalize (@nil (val * val)). induction l as [|[k v] l IH]; intros s; cbn; auto. destruct (ev k); cbn; auto. destruct (ev v); cbn; auto. rewrite IH. destruct (all_pairs l); reflexivity.
  Qed.
  Lemma all_ok_iff l : Forall (fun x => forall w, ev x = Ok w <-> encodes encode x w) l -> forall l', all_ok l = Ok l' <-> Forall2 (encodes encode) l l'.
  Proof.
    induction 1 as [|x l H F IH]; intros l'; cbn.
    - split; [intros [= <-]; auto|inversion 1; auto].
    - split.
      + destruct (ev x) as [w|] eqn:E; cbn; [|discriminate]. destruct (all_ok l) as [m|]; cbn; [|discriminate]. intros [= <-]. constructor; [now apply H|now apply IH].
      + inversion 1; subst. apply H in H3. rewrite H3. cbn. apply IH in H5. now rewrite H5.
  Qed.
  Lemma all_pairs_iff l : Forall (fun x => forall w, ev x = Ok w <-> encodes encode x w) (map fst l) -> Forall (fun x => forall w, ev x = Ok w <-> encodes encode x w) (map snd l) ->
    forall l', all_pairs l = Ok l' <-> Forall2 (encodes encode) (map fst l) (map fst l') /\ Forall2 (encodes encode) (map snd l) (map snd l').
  Proof.
    induction l as [|[k v] l IH]; cbn; intros A B l'.
    - split; [intros [= <-]; split; constructor|]. intros [H _]. inversion H. destruct l'; [auto|discriminate].
    - apply Forall_cons_iff in A as [A1 A2], B as [B1 B2]. split.
      + destruct (ev k) as [k'|] eqn:E; cbn; [|discriminate]. destruct (ev v) as [v'|] eqn:G; cbn; [|discriminate]. destruct (all_pairs l) as [m|]; cbn; [|discriminate].
        intros [= <-]. cbn. destruct (proj1 (IH A2 B2 m) eq_refl). split; constructor; auto; [now apply A1|now apply B1].
      + destruct l' as [|[k' v'] l']; cbn; intros [X Y]; inversion X; inversion Y; subst. apply A1 in H2. apply B1 in H8. rewrite H2, H8. cbn.
        rewrite (proj2 (IH A2 B2 l') (conj H4 H10)). reflexivity.
  Qed.
  Lemma dict_fold l : forall d ks vs, length ks = length vs -> is_dict ks vs d ->
    is_dict (ks ++ map fst l) (vs ++ map snd l) (fold_left (fun d p => dict_set d (fst p) (snd p)) l d).
  Proof.
    induction l as [|[k v] l IH]; intros d ks vs L D; cbn; [now rewrite !app_nil_r|].
    specialize (IH (dict_set d k v) (ks ++ [k]) (vs ++ [v])). rewrite <- !app_assoc in IH. apply IH; [rewrite !app_length; cbn; lia|]. apply dict_set_is_dict; auto.
  Qed.
  Lemma dict_empty : is_dict [] [] [].
  Proof. split; auto. intros k v []. Qed.
  Lemma plain_make c v : plain_class construct c -> match v with VDict 0 _ | VList 0 _ | VTuple 0 _ | VSet 0 _ => True | _ => False end ->
    make construct c v = Ok (match v with VDict _ l => VDict c l | VList _ l => VList c l | VTuple _ l => VTuple c l | VSet _ l => VSet c l | _ => v end).
  Proof.
    intros [->|H] V; unfold make; [destruct v; try contradiction; cbn; destruct cls; tauto|]. destruct c; cbn [Nat.eqb].
    - destruct v; try contradiction; destruct cls; tauto.
    - destruct v as [| |cls l|cls l|cls l|cls l|]; try contradiction; destruct cls; try contradiction; [apply (H [] l)|apply (H l [])..].
  Qed.
  Lemma plain_sub_list o l : plain construct o -> (forall x y, In x l -> within x y -> within o y) -> Forall (plain construct) l.
  Proof. intros P H. apply Forall_forall. intros x I y W C. apply P; eauto. Qed.
  Lemma Forall_mp {A} (P Q : A -> Prop) l : Forall (fun x => P x -> Q x) l -> Forall P l -> Forall Q l.
  Proof. rewrite !Forall_forall. auto. Qed.
  Lemma encode_iff o : plain construct o -> forall w, ev o = Ok w <-> encodes encode o w.
  Proof.
    induction o using val_rec'; intros P w.
    - cbn. split; [intros [= <-]; constructor|inversion 1; auto].
    - cbn. split; [destruct (encode s) eqn:E; cbn; [|discriminate]; intros [= <-]; now constructor|inversion 1; subst; now rewrite H3].
    - rewrite ev_dict. assert (Q : plain_class construct c) by (apply (P (VDict c l)); cbn; auto; constructor).
      assert (F1 : Forall (plain construct) (map fst l)).
      { eapply plain_sub_list; [exact P|]. intros x y I W. apply in_map_iff in I as ([k v] & <- & I). eapply within_key; eauto. }
      assert (F2 : Forall (plain construct) (map snd l)).
      { eapply plain_sub_list; [exact P|]. intros x y I W. apply in_map_iff in I as ([k v] & <- & I). eapply within_value; eauto. }
      pose proof (all_pairs_iff l (Forall_mp _ _ _ H F1) (Forall_mp _ _ _ H0 F2)) as K. split.
      + destruct (all_pairs l) as [l'|]; cbn [rbind]; [|discriminate]. destruct (proj1 (K l') eq_refl) as [K1 K2].
        rewrite plain_make by (cbn; auto). intros [= <-]. destruct (dict_fold l' [] [] [] eq_refl dict_empty) as [D1 D2]. cbn [app] in *. eapply enc_dict; eauto.
      + inversion 1; subst. assert (L : length ks = length vs). { pose proof (Forall2_length _ _ _ H4) as L1. pose proof (Forall2_length _ _ _ H5) as L2. rewrite !map_length in *. congruence. }
        assert (E : exists l', ks = map fst l' /\ vs = map snd l').
        { exists (combine ks vs). clear - L. revert vs L. induction ks; intros [|v vs]; cbn; try discriminate; auto. intros [= L]. destruct (IHks vs L). split; congruence. }
        destruct E as (l' & -> & ->). rewrite (proj2 (K l') (conj H4 H5)). cbn [rbind]. rewrite plain_make by (cbn; auto). do 2 f_equal.
        apply (is_dict_fun (map fst l') (map snd l')); [|split; auto]. exact (dict_fold l' [] [] [] eq_refl dict_empty).
    - rewrite ev_list. assert (Q : plain_class construct c) by (apply (P (VList c l)); cbn; auto; constructor).
      assert (F1 : Forall (plain construct) l) by (eapply plain_sub_list; [exact P|]; intros; eapply within_list; eauto).
      pose proof (all_ok_iff l (Forall_mp _ _ _ H F1)) as K. split.
      + destruct (all_ok l) as [l'|]; cbn [rbind]; [|discriminate]. rewrite plain_make by (cbn; auto). intros [= <-]. constructor. now apply K.
      + inversion 1; subst. apply K in H4. rewrite H4. cbn [rbind]. now rewrite plain_make by (cbn; auto).
    - rewrite ev_tuple. assert (Q : plain_class construct c) by (apply (P (VTuple c l)); cbn; auto; constructor).
      assert (F1 : Forall (plain construct) l) by (eapply plain_sub_list; [exact P|]; intros; eapply within_tuple; eauto).
      pose proof (all_ok_iff l (Forall_mp _ _ _ H F1)) as K. split.
      + destruct (all_ok l) as [l'|]; cbn [rbind]; [|discriminate]. rewrite plain_make by (cbn; auto). intros [= <-]. constructor. now apply K.
      + inversion 1; subst. apply K in H4. rewrite H4. cbn [rbind]. now rewrite plain_make by (cbn; auto).
    - rewrite ev_set. assert (Q : plain_class construct c) by (apply (P (VSet c l)); cbn; auto; constructor).
      assert (F1 : Forall (plain construct) l) by (eapply plain_sub_list; [exact P|]; intros; eapply within_set; eauto).
      pose proof (all_ok_iff l (Forall_mp _ _ _ H F1)) as K. split.
      + destruct (all_ok l) as [l'|]; cbn [rbind]; [|discriminate]. rewrite plain_make by (cbn; auto). intros [= <-]. rewrite (set_fold _ [] []) by auto. cbn [app]. constructor. now apply K.
      + inversion 1; subst. apply K in H4. rewrite H4. cbn [rbind]. rewrite plain_make by (cbn; auto). now rewrite (set_fold _ [] []) by auto.
    - cbn. split; [discriminate|inversion 1].
  Qed.

  (** errors *)
  Definition blames (o : val) (e : exn) : Prop := (exists n, within o (VOther n) /\ e = TypeError) \/ exists c s, within o (VStr c s) /\ encode s = Err e.
  Lemma blames_sub o x e : (forall y, within x y -> within o y) -> blames x e -> blames o e.
  Proof. intros H [(n & W & E)|(c & s & W & E)]; [left|right]; eauto. Qed.
  Lemma all_ok_err l e : all_ok l = Err e -> exists x, In x l /\ ev x = Err e.
  Proof.
    induction l as [|x l IH]; cbn; [discriminate|]. destruct (ev x) eqn:E; cbn; [|intros [= <-]; eauto]. destruct (all_ok l); cbn; [discriminate|]. intros [= <-]. destruct (IH eq_refl) as (y & I & Q). eauto.
  Qed.
  Lemma all_pairs_err l e : all_pairs l = Err e -> exists k v, In (k, v) l /\ (ev k = Err e \/ ev v = Err e).
  Proof.
    induction l as [|[k v] l IH]; cbn; [discriminate|]. destruct (ev k) eqn:E; cbn; [|intros [= <-]; exists k, v; auto]. destruct (ev v) eqn:G; cbn; [|intros [= <-]; exists k, v; auto].
    destruct (all_pairs l); cbn; [discriminate|]. intros [= <-]. destruct (IH eq_refl) as (y & z & I & Q). exists y, z. auto.
  Qed.
  Lemma encode_err o : plain construct o -> forall e, ev o = Err e -> blames o e.
  Proof.
    induction o using val_rec'; intros P e.
    - discriminate.
    - cbn. destruct (encode s) eqn:E; cbn; [discriminate|]. intros [= <-]. right. exists c, s. split; auto. constructor.
    - rewrite ev_dict. assert (Q : plain_class construct c) by (apply (P (VDict c l)); cbn; auto; constructor). destruct (all_pairs l) eqn:E; cbn [rbind]; [rewrite plain_make by (cbn; auto); discriminate|].
      intros [= <-]. apply all_pairs_err in E as (k & v & I & E). destruct E as [E|E].
      + assert (S : forall y, within k y -> within (VDict c l) y) by (intros; eapply within_key; eauto). eapply blames_sub; [exact S|].
        rewrite Forall_forall in H. apply H; auto; [apply (in_map fst _ _ I)|]. intros y W C. apply P; auto.
      + assert (S : forall y, within v y -> within (VDict c l) y) by (intros; eapply within_value; eauto). eapply blames_sub; [exact S|].
        rewrite Forall_forall in H0. apply H0; auto; [apply (in_map snd _ _ I)|]. intros y W C. apply P; auto.
    - rewrite ev_list. assert (Q : plain_class construct c) by (apply (P (VList c l)); cbn; auto; constructor). destruct (all_ok l) eqn:E; cbn [rbind]; [rewrite plain_make by (cbn; auto); discriminate|].
      intros [= <-]. apply all_ok_err in E as (k & I & E). assert (S : forall y, within k y -> within (VList c l) y) by (intros; eapply within_list; eauto). eapply blames_sub; [exact S|].
      rewrite Forall_forall in H. apply H; auto. intros y W C. apply P; auto.
    - rewrite ev_tuple. assert (Q : plain_class construct c) by (apply (P (VTuple c l)); cbn; auto; constructor). destruct (all_ok l) eqn:E; cbn [rbind]; [rewrite plain_make by (cbn; auto); discriminate|].
      intros [= <-]. apply all_ok_err in E as (k & I & E). assert (S : forall y, within k y -> within (VTuple c l) y) by (intros; eapply within_tuple; eauto). eapply blames_sub; [exact S|].
      rewrite Forall_forall in H. apply H; auto. intros y W C. apply P; auto.
    - rewrite ev_set. assert (Q : plain_class construct c) by (apply (P (VSet c l)); cbn; auto; constructor). destruct (all_ok l) eqn:E; cbn [rbind]; [rewrite plain_make by (cbn; auto); discriminate|].
      intros [= <-]. apply all_ok_err in E as (k & I & E). assert (S : forall y, within k y -> within (VSet c l) y) by (intros; eapply within_set; eauto). eapply blames_sub; [exact S|].
      rewrite Forall_forall in H. apply H; auto. intros y W C. apply P; auto.
    - cbn. intros [= <-]. left. exists n. split; auto. constructor.
  Qed.

  (** success means that nothing inside is to blame *)
  Lemma Forall2_in_l {A B} (R : A -> B -> Prop) l l' x : Forall2 R l l' -> In x l -> exists y, In y l' /\ R x y.
  Proof. induction 1; cbn; [tauto|]. intros [->|I]; eauto. destruct (IHForall2 I) as (z & ? & ?). eauto. Qed.
  Lemma Forall2_in_r {A B} (R : A -> B -> Prop) l l' y : Forall2 R l l' -> In y l' -> exists x, In x l /\ R x y.
  Proof. induction 1; cbn; [tauto|]. intros [->|I]; eauto. destruct (IHForall2 I) as (z & ? & ?). eauto. Qed.
  Lemma encodes_within o y : within o y -> forall w, encodes encode o w -> exists z, encodes encode y z.
  Proof.
    induction 1; intros w E; eauto; inversion E; subst;
    try (match goal with F : Forall2 _ ?l ?m, I : In ?x ?l |- _ => destruct (Forall2_in_l _ _ _ _ F I) as (? & ? & ?); eauto end).
    - destruct (Forall2_in_l _ _ _ k H3) as (? & ? & ?); [apply (in_map fst _ _ H)|]. eauto.
    - destruct (Forall2_in_l _ _ _ v H4) as (? & ? & ?); [apply (in_map snd _ _ H)|]. eauto.
  Qed.
  Lemma distinct_incl l x : In x (distinct l) -> In x l.
  Proof. induction l as [|a l IH]; cbn; auto. intros [->|I]; auto. apply filter_In in I as [I _]. auto. Qed.
  Lemma encodes_no_str w y : within w y -> forall o, encodes encode o w -> forall c s, y <> VStr c s.
  Proof.
    induction 1; intros w E c0 s; [inversion E; subst; discriminate|..]; inversion E; subst.
    - match goal with F : Forall2 _ _ l |- _ => destruct (Forall2_in_r _ _ _ _ F H) as (? & ? & ?) end. eauto.
    - match goal with F : Forall2 _ _ l |- _ => destruct (Forall2_in_r _ _ _ _ F H) as (? & ? & ?) end. eauto.
    - apply distinct_incl in H. match goal with F : Forall2 _ _ l' |- _ => destruct (Forall2_in_r _ _ _ _ F H) as (? & ? & ?) end. eauto.
    - apply (in_map fst) in H. cbn in H. match goal with Q : map fst l = _ |- _ => rewrite Q in H end. apply distinct_incl in H.
      match goal with F : Forall2 _ _ ks |- _ => destruct (Forall2_in_r _ _ _ _ F H) as (? & ? & ?) end. eauto.
    - match goal with Q : forall k v, In (k, v) l -> _ |- _ => destruct (Q _ _ H) as (i & _ & N & _) end. apply nth_error_In in N.
      match goal with F : Forall2 _ _ vs |- _ => destruct (Forall2_in_r _ _ _ _ F N) as (? & ? & ?) end. eauto.
  Qed.

  (** * nothing lost *)
  Definition no_bytes (o : val) : Prop := forall c b, ~ within o (VBytes c b).
  Context (inj : forall s t b, encode s = Ok b -> encode t = Ok b -> s = t).
  Lemma veqb_back a : forall b wa wb, no_bytes a -> no_bytes b -> encodes_intact encode a wa -> encodes_intact encode b wb -> veqb wa wb = true -> veqb a b = true.
  Proof.
    assert (K : forall (l : list val), Forall (fun a => forall b wa wb, no_bytes a -> no_bytes b -> encodes_intact encode a wa -> encodes_intact encode b wb -> veqb wa wb = true -> veqb a b = true) l ->
      forall m l' m', (forall x, In x l -> no_bytes x) -> (forall x, In x m -> no_bytes x) -> Forall2 (encodes_intact encode) l l' -> Forall2 (encodes_intact encode) m m' -> vseqb l' m' = true -> vseqb l m = true).
    { induction 1; intros m l' m' N M A B; inversion A; inversion B; subst; cbn; auto; try discriminate. rewrite !andb_true_iff. intros [X Y]. split.
      - eapply H; [apply N; now left|apply M; now left|eassumption..].
      - eapply IHForall; [intros; apply N; now right|intros; apply M; now right|eassumption..]. }
    induction a using val_rec'; intros b0 wa wb N M A B.
    - exfalso. apply (N c b). constructor.
    - inversion A; subst. inversion B; subst; cbn [veqb]; try discriminate.
      + exfalso. apply (M c0 b1). constructor.
      + intros E. apply str_eqb_eq in E. subst. apply str_eqb_eq. eapply inj; eauto.
    - inversion A; subst. inversion B; subst; cbn [veqb]; try discriminate. change (vpeqb d d0 = true -> vpeqb l l0 = true).
      assert (Nk : forall k v, In (k, v) l -> no_bytes k /\ no_bytes v). { intros k v I. split; intros c' b' W; apply (N c' b'); [eapply within_key|eapply within_value]; eauto. }
      assert (Mk : forall k v, In (k, v) l0 -> no_bytes k /\ no_bytes v). { intros k v I. split; intros c' b' W; apply (M c' b'); [eapply within_key|eapply within_value]; eauto. }
      clear A B N M. revert l0 d0 d H3 H5 H1 H2 H H0 Nk Mk. induction l as [|[k v] l IH]; intros [|[k1 v1] l0] [|[k2 v2] d0] [|[k3 v3] d]; cbn; intros A1 A2 B1 B2 X Y Nk Mk; inversion A1; inversion A2; inversion B1; inversion B2; subst; auto; try discriminate.
      apply Forall_cons_iff in X as [X1 X2], Y as [Y1 Y2]. rewrite !andb_true_iff. intros [[E1 E2] E3]. destruct (Nk k v (or_introl eq_refl)), (Mk k1 v1 (or_introl eq_refl)).
      split; [split; [eapply (X1 _ k3 k2); eassumption|eapply (Y1 _ v3 v2); eassumption]|]. eapply IH with (d := d); try eassumption; intros; [apply Nk|apply Mk]; right; assumption.
    - inversion A; subst. inversion B; subst; cbn [veqb]; try discriminate. apply (K _ H); auto; intros x I c' b' W; [eapply N|eapply M]; eapply within_list; eauto.
    - inversion A; subst. inversion B; subst; cbn [veqb]; try discriminate. apply (K _ H); auto; intros x I c' b' W; [eapply N|eapply M]; eapply within_tuple; eauto.
    - inversion A; subst. inversion B; subst; cbn [veqb]; try discriminate. apply (K _ H); auto; intros x I c' b' W; [eapply N|eapply M]; eapply within_set; eauto.
    - inversion A.
  Qed.
  Lemma distinct_id l : ForallOrdPairs (fun a b => veqb a b = false) l -> distinct l = l.
  Proof.
    induction 1; cbn; auto. rewrite IHForallOrdPairs. f_equal. clear - H. induction H; cbn; auto. rewrite H. cbn. now f_equal.
  Qed.
  Lemma pairs_forward l l' : (forall x, In x l -> no_bytes x) -> Forall2 (encodes_intact encode) l l' -> ForallOrdPairs (fun a b => veqb a b = false) l -> ForallOrdPairs (fun a b => veqb a b = false) l'.
  Proof.
    intros N F O. revert l' F. induction O as [|a l A O IH]; intros l' F; inversion F; subst; constructor.
    - apply Forall_forall. intros z I. destruct (Forall2_in_r _ _ _ _ H3 I) as (z' & I' & E). rewrite Forall_forall in A. specialize (A _ I').
      destruct (veqb y z) eqn:Q; auto. rewrite (veqb_back a z' y z) in A; auto; apply N; cbn; auto.
    - apply IH; auto. intros x I. apply N. now right.
  Qed.
  Lemma Forall2_impl_in {A B} (R S : A -> B -> Prop) l l' : (forall x y, In x l -> R x y -> S x y) -> Forall2 R l l' -> Forall2 S l l'.
  Proof. intros H F. induction F; constructor; [apply H; cbn; auto|]. apply IHF. intros. apply H; cbn; auto. Qed.
  Lemma intact o : no_bytes o -> well_formed o -> forall w, encodes encode o w -> encodes_intact encode o w.
  Proof.
    assert (G : forall o l, no_bytes o -> well_formed o -> (forall x y, In x l -> within x y -> within o y) ->
      Forall (fun o => no_bytes o -> well_formed o -> forall w, encodes encode o w -> encodes_intact encode o w) l -> forall l', Forall2 (encodes encode) l l' ->
      Forall2 (encodes_intact encode) l l' /\ forall x, In x l -> no_bytes x).
    { intros o1 l N W S H l' F. rewrite Forall_forall in H. assert (B : forall x, In x l -> no_bytes x) by (intros x I c b Q; apply (N c b); eauto). split; auto.
      eapply Forall2_impl_in; [|exact F]. intros x y I E. apply H; auto. intros z Q. apply W. eauto. }
    induction o using val_rec'; intros N W w E; inversion E; subst.
    - constructor.
    - now constructor.
    - destruct (G (VDict c l) (map fst l) N W) with (l' := ks) as [K1 K2]; auto.
      { intros x y I Q. apply in_map_iff in I as ([k v] & <- & I). eapply within_key; eauto. }
      destruct (G (VDict c l) (map snd l) N W) with (l' := vs) as [V1 V2]; auto.
      { intros x y I Q. apply in_map_iff in I as ([k v] & <- & I). eapply within_value; eauto. }
      pose proof (pairs_forward _ _ K2 K1 (W _ (within_self _))) as P. match goal with Q : map fst d = distinct ks |- _ => rewrite (distinct_id ks P) in Q; subst ks end. match goal with Q : forall k v, In (k, v) d -> _ |- _ => rename Q into H7 end. constructor; auto.
      assert (Es : map snd d = vs); [|now rewrite Es]. assert (L : length (map fst d) = length vs) by (rewrite <- (Forall2_length _ _ _ K1), <- (Forall2_length _ _ _ V1), !map_length; auto).
      apply nth_error_ext. intros i. destruct (nth_error d i) as [[k v]|] eqn:D.
      + rewrite (map_nth_error snd _ _ D). cbn. destruct (H7 k v (nth_error_In _ _ D)) as (j & (k' & A & B) & C & _).
        assert (i = j) as ->; [|now rewrite C]. pose proof (map_nth_error fst _ _ D) as D'. cbn in D'.
        assert (U : forall (l : list val) i j k k', ForallOrdPairs (fun a b => veqb a b = false) l -> nth_error l i = Some k -> nth_error l j = Some k' -> veqb k k' = true -> i = j).
        { clear. induction l as [|x l IH]; intros [|i] [|j] k k' P A B C; cbn in *; try discriminate; auto; inversion P; subst.
          - injection A as ->. apply nth_error_In in B. rewrite Forall_forall in H1. rewrite (H1 _ B) in C. discriminate.
          - injection B as ->. apply nth_error_In in A. rewrite Forall_forall in H1. rewrite veqb_sym, (H1 _ A) in C. discriminate.
          - f_equal. eauto. }
        eapply U; eauto.
      + apply nth_error_None in D. rewrite map_length in L. symmetry. rewrite (proj2 (nth_error_None (map snd d) i)) by (rewrite map_length; lia). apply nth_error_None. lia.
    - constructor. eapply (G (VList c l)); eauto. intros. eapply within_list; eauto.
    - constructor. eapply (G (VTuple c l)); eauto. intros. eapply within_tuple; eauto.
    - destruct (G (VSet c l) l N W) with (l' := l') as [K1 K2]; auto. { intros. eapply within_set; eauto. }
      pose proof (pairs_forward _ _ K2 K1 (W _ (within_self _))) as P. rewrite (distinct_id _ P). now constructor.
  Qed.
End Enc.
