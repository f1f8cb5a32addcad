(** encode_strings: the property C94. *)
From Verif Require Import EncodeModel EncodeSpec EncodeProof EncodeProof2 PyBaseProof PyStrProof.

(** the encoding used: what is asked for, or ASCII *)
Definition codec (o : option (str -> result str)) : str -> result str := match o with None => ascii_codec | Some e => e end.
(** encode_strings(o) returns w exactly when w is o with every str encoded - for containers of
    the built-in classes, and of subclasses whose constructor takes the contents. *)
Theorem C94_result_partial : forall construct o e w, plain construct o -> encode_strings construct o e = Ok w <-> encodes (codec e) o w.
Proof. intros. now apply encode_iff. Qed.
Print Assumptions C94_result_partial.
(** It succeeds exactly when every str inside can be encoded and everything inside is of a
    supported type; otherwise the exception is TypeError for an unsupported type, or the one
    the encoding of a str inside raised. *)
Theorem C94_succeeds_partial : forall construct o e, plain construct o ->
  (exists w, encode_strings construct o e = Ok w) <-> (forall n, ~ within o (VOther n)) /\ forall c s, within o (VStr c s) -> exists b, codec e s = Ok b.
Proof.
  intros construct o e P. split.
  - intros [w E]. apply (encode_iff _ _ o P) in E. split.
    + intros n W. destruct (encodes_within _ _ _ W _ E) as [z H]. inversion H.
    + intros c s W. destruct (encodes_within _ _ _ W _ E) as [z H]. inversion H; subst. eauto.
  - intros [A B]. unfold encode_strings. fold (codec e). destruct (encode_value (codec e) construct o) as [w|x] eqn:E; [eauto|]. exfalso.
    destruct (encode_err _ _ _ P _ E) as [(n & W & _)|(c & s & W & Q)]; [eapply A; eauto|]. destruct (B _ _ W). congruence.
Qed.
Print Assumptions C94_succeeds_partial.
Theorem C94_errors_partial : forall construct o e x, plain construct o -> encode_strings construct o e = Err x ->
  (x = TypeError /\ exists n, within o (VOther n)) \/ exists c s, within o (VStr c s) /\ codec e s = Err x.
Proof. intros construct o e x P E. destruct (encode_err _ _ _ P _ E) as [(n & W & ->)|H]; eauto. Qed.
Print Assumptions C94_errors_partial.
(** no str is left anywhere inside *)
Theorem C94_no_str_left_partial : forall construct o e w, plain construct o -> encode_strings construct o e = Ok w -> forall c s, ~ within w (VStr c s).
Proof. intros construct o e w P E c s W. apply (encode_iff _ _ o P) in E. exact (encodes_no_str _ _ _ W _ E c s eq_refl). Qed.
Print Assumptions C94_no_str_left_partial.
(** Nothing is lost (every set and dict keeps its size, every value its key), if there is no
    bytes object inside, and the encoding encodes different strings differently. *)
Theorem C94_nothing_lost_partial : forall construct o e w, plain construct o -> well_formed o -> (forall c b, ~ within o (VBytes c b)) ->
  (forall s t b, codec e s = Ok b -> codec e t = Ok b -> s = t) ->
  encode_strings construct o e = Ok w -> encodes_intact (codec e) o w.
Proof. intros construct o e w P W N I E. apply (encode_iff _ _ o P) in E. eapply intact; eauto. Qed.
Print Assumptions C94_nothing_lost_partial.
(** ASCII and Latin-1 are such: they keep the characters, and refuse those they do not have *)
Theorem C94_ascii : forall s b, (codec None s = Ok b <-> b = s /\ Forall (fun c => (c < 128)%N) s) /\
  (codec (Some latin1_codec) s = Ok b <-> b = s /\ Forall (fun c => (c < 256)%N) s).
Proof.
  assert (K : forall n s b, encode_below n s = Ok b <-> b = s /\ Forall (fun c => (c < n)%N) s).
  { intros n s b. unfold encode_below. destruct (forallb (fun c => (c <? n)%N) s) eqn:E.
    - rewrite forallb_forall in E. split; [intros [= <-]; split; auto; apply Forall_forall; intros; now apply N.ltb_lt, E|now intros [-> _]].
    - split; [discriminate|]. intros [_ F]. apply not_true_iff_false in E. destruct E. apply forallb_forall. rewrite Forall_forall in F. intros. now apply N.ltb_lt, F. }
  intros. split; apply K.
Qed.
Print Assumptions C94_ascii.
(** bytes are left alone: on a value without str it is the identity *)
Lemma encodes_self e o : well_formed o -> (forall c s, ~ within o (VStr c s)) -> (forall n, ~ within o (VOther n)) -> encodes e o o.
Proof.
  assert (G : forall o1 l, well_formed o1 -> (forall c s, ~ within o1 (VStr c s)) -> (forall n, ~ within o1 (VOther n)) -> (forall x y, In x l -> within x y -> within o1 y) ->
    Forall (fun o => well_formed o -> (forall c s, ~ within o (VStr c s)) -> (forall n, ~ within o (VOther n)) -> encodes e o o) l -> Forall2 (encodes e) l l).
  { intros o1 l W S T H F. rewrite Forall_forall in F.
    assert (K : forall x, In x l -> encodes e x x) by (intros x I; apply F; auto; [intros y Q; apply W|intros c s Q; eapply S|intros n Q; eapply T]; eauto).
    clear - K. induction l; constructor; [apply K; cbn; auto|]. apply IHl. intros. apply K. cbn; auto. }
  induction o using val_rec'; intros W S T.
  - constructor.
  - exfalso. eapply S. constructor.
  - eapply enc_dict with (ks := map fst l) (vs := map snd l).
    + eapply (G (VDict c l)); eauto. intros x y I Q. apply in_map_iff in I as ([k v] & <- & I). eapply within_key; eauto.
    + eapply (G (VDict c l)); eauto. intros x y I Q. apply in_map_iff in I as ([k v] & <- & I). eapply within_value; eauto.
    + symmetry. apply distinct_id. exact (W _ (within_self _)).
    + intros k v I. apply In_nth_error in I as [i D]. exists i. split; [exists k; split; [apply (map_nth_error fst _ _ D)|apply veqb_refl]|]. split; [apply (map_nth_error snd _ _ D)|].
      intros j k' L N. pose proof (W _ (within_self _)) as O. cbn in O. apply (map_nth_error fst) in D. cbn in D. clear - O D N L.
      revert i j L D N. induction O as [|a m A O IH]; intros [|i] [|j] L D N; cbn in *; try discriminate; try lia.
      * injection D as ->. apply nth_error_In in N. rewrite Forall_forall in A. auto.
      * eapply (IH i j); eauto. lia.
  - constructor. eapply (G (VList c l)); eauto. intros. eapply within_list; eauto.
  - constructor. eapply (G (VTuple c l)); eauto. intros. eapply within_tuple; eauto.
  - pose proof (enc_set e c l l) as K. rewrite (distinct_id l) in K by exact (W _ (within_self _)). apply K. eapply (G (VSet c l)); eauto. intros. eapply within_set; eauto.
  - exfalso. eapply T. constructor.
Qed.
Theorem C94_bytes_kept_partial : forall construct o e, plain construct o -> well_formed o -> (forall c s, ~ within o (VStr c s)) -> (forall n, ~ within o (VOther n)) ->
  encode_strings construct o e = Ok o.
Proof. intros. apply encode_iff; auto. now apply encodes_self. Qed.
Print Assumptions C94_bytes_kept_partial.

Definition builtin_only (c : nat) (v : val) : result val := Err TypeError.
(** A set {'a', b'a'} loses an element, a dict {'a': 1, b'a': 2} an item. *)
Theorem C94_nothing_lost_refuted : exists s d, well_formed s /\ well_formed d /\ plain builtin_only s /\ plain builtin_only d /\
  s = VSet 0 [VStr 0 (u "a"); VBytes 0 (u "a")] /\ encode_strings builtin_only s None = Ok (VSet 0 [VBytes 0 (u "a")]) /\
  d = VDict 0 [(VStr 0 (u "a"), VStr 0 (u "x")); (VBytes 0 (u "a"), VStr 0 (u "y"))] /\
  encode_strings builtin_only d None = Ok (VDict 0 [(VBytes 0 (u "a"), VBytes 0 (u "y"))]).
Proof.
  assert (A : forall l c s, within (VStr c s) l -> l = VStr c s) by (inversion 1; auto).
  assert (B : forall l c s, within (VBytes c s) l -> l = VBytes c s) by (inversion 1; auto).
  eexists _, _. repeat split;
  repeat match goal with
         | |- forall _, within _ _ -> _ => intros x W
         | |- well_formed _ => unfold well_formed
         | |- plain _ _ => unfold plain
         end; try reflexivity;
  inversion W; subst; cbn in *; auto; repeat match goal with
    | H : _ \/ _ |- _ => destruct H as [<- | H]
    | H : False |- _ => destruct H
    | H : In _ _ |- _ => cbn in H
    | H : (_, _) = (_, _) \/ _ |- _ => destruct H as [[= <- <-] | H]
    | H : within (VStr _ _) _ |- _ => apply A in H; subst
    | H : within (VBytes _ _) _ |- _ => apply B in H; subst
    end; auto; try (repeat constructor; fail); try (intros _; now left); try tauto.
Qed.
Print Assumptions C94_nothing_lost_refuted.
(** A subclass whose constructor does not take the contents - a namedtuple with two fields, class
    1 here - is not supported, although the documentation says so. *)
Definition namedtuple_only (c : nat) (v : val) : result val := Err TypeError.
Theorem C94_subclass_refuted : encode_strings namedtuple_only (VTuple 1 [VStr 0 (u "a"); VStr 0 (u "b")]) None = Err TypeError /\
  forall n, ~ within (VTuple 1 [VStr 0 (u "a"); VStr 0 (u "b")]) (VOther n).
Proof. split; [reflexivity|]. intros n W. inversion W; subst. cbn in H1. destruct H1 as [<-|[<-|[]]]; inversion H3. Qed.
Print Assumptions C94_subclass_refuted.
(** a subclass of list, class 1, inside a dict *)
Definition plain_one (c : nat) (v : val) : result val :=
  match v with VDict _ l => Ok (VDict c l) | VList _ l => Ok (VList c l) | VTuple _ l => Ok (VTuple c l) | VSet _ l => Ok (VSet c l) | _ => Err TypeError end.
Example C94_witness : plain plain_one (VDict 0 [(VStr 0 (u "k"), VList 1 [VStr 0 (u "v"); VBytes 0 (u "w")])]) /\
  encode_strings plain_one (VDict 0 [(VStr 0 (u "k"), VList 1 [VStr 0 (u "v"); VBytes 0 (u "w")])]) None = Ok (VDict 0 [(VBytes 0 (u "k"), VList 1 [VBytes 0 (u "v"); VBytes 0 (u "w")])]) /\
  encode_strings plain_one (VList 0 [VStr 0 (u "a"); VStr 0 [200%N]; VOther 3]) None = Err UnicodeEncodeError.
Proof. split; [|split; reflexivity]. intros x _ _. right. intros l d. repeat split. Qed.
Example C94_witness_lost : exists o, well_formed o /\ (forall c b, ~ within o (VBytes c b)) /\ encode_strings plain_one o None = Ok (VSet 0 [VBytes 0 (u "a"); VBytes 0 (u "b")]).
Proof.
  exists (VSet 0 [VStr 0 (u "a"); VStr 0 (u "b")]). split; [|split; [|reflexivity]].
  - intros x W. inversion W; subst; cbn.
    + repeat constructor.
    + cbn in H1. destruct H1 as [<-|[<-|[]]]; inversion H3; auto.
  - intros c b W. inversion W; subst. cbn in H1. destruct H1 as [<-|[<-|[]]]; inversion H3.
Qed.
