(** C144: what repr() shows of an instance of a bound inner class. *)
From Verif Require Import PyBase PyStr PyStrProof BicModel BicSpec BicProof BicProof2 BicProof3 BicProps BicProps2 BicReprModel.

(** * Specification: in terms of the class statements only *)
Section Spec.
  Context (type_attr : oid -> str -> option value) (w0 : world) (custom : cid -> bool).
  (** the class has a __repr__, its own or an inherited one *)
  Definition has_repr (c : cid) : bool := existsb custom (mro_of w0 c).
  (** The first class in the order that is relevant has a __repr__ in its class statement, or is decorated with BoundInnerClass for o and without any. *)
  Definition shows (o : oid) (l : list cid) : shown :=
    match find (fun x => custom x || decorated_bound type_attr w0 o x && negb (has_repr x)) l with
    | None => ByObject
    | Some x => if has_repr x then ByCustom x else ByBound o x
    end.
End Spec.

Section Proof.
  Context (type_attr : oid -> str -> option value) (w0 : world) (rank : oid -> cid -> nat).
  Hypothesis W0 : forall c, c < length (classes w0) -> class_ok w0 c.
  Hypothesis U : forall o, usage type_attr w0 o (rank o).
  Notation mro_of := (mro_of w0).
  Notation n0 := (length (classes w0)).
  Context (w : world) (o : oid) (Iw : inv type_attr w0 w) (custom : cid -> bool).
  Lemma plain_find l : (forall x, In x l -> x < n0 /\ c_kind (the_class w0 x) = Plain) -> forall fuel, length l < fuel ->
    find_repr w custom fuel l = Ok (match find custom l with Some y => ByCustom y | None => ByObject end).
  Proof.
    induction l as [|x l IH]; intros K fuel L; (destruct fuel as [|fuel]; [cbn in L; lia|]); cbn [find_repr find]; auto.
    destruct (K x (or_introl eq_refl)) as (LX & KX). rewrite (inv_class type_attr w0 w x Iw LX), KX. destruct (custom x); auto.
    apply IH; [intros y J; apply K; right; exact J|cbn in L; lia].
  Qed.
  Lemma has_repr_find x : has_repr w0 custom x = match find custom (mro_of x) with Some _ => true | None => false end.
  Proof. unfold has_repr. induction (mro_of x) as [|y l IH]; cbn; auto. destruct (custom y); auto. Qed.
  Lemma fr_bound f k o' x s : c_kind (the_class w k) = BoundTo o' x ->
    find_repr w custom (S f) (k :: s) = rbind (find_repr w custom f (c_mro (the_class w x))) (fun r => match r with ByObject => Ok (ByBound o' x) | _ => find_repr w custom f s end).
  Proof. intros E. cbn [find_repr]. now rewrite E. Qed.
  Lemma fr_unbound f k x s : c_kind (the_class w k) = UnboundIn x -> find_repr w custom (S f) (k :: s) = find_repr w custom f s.
  Proof. intros E. cbn [find_repr]. now rewrite E. Qed.
  Lemma doubled_find M l l' : doubled type_attr w0 w o l l' ->
    (forall x, In x l -> x < n0 /\ c_kind (the_class w0 x) = Plain /\ length (mro_of x) <= M /\ forall y, In y (mro_of x) -> y < n0 /\ c_kind (the_class w0 y) = Plain) ->
    forall fuel, 2 * length l + M < fuel -> find_repr w custom fuel l' = Ok (shows type_attr w0 custom o l).
  Proof.
    induction 1 as [|x l s DX HS IH|x k l s DX Q HS IH]; intros K fuel L.
    - destruct fuel as [|fuel]; [cbn in L; lia|]. reflexivity.
    - destruct (K x (or_introl eq_refl)) as (LX & KX & MX & KM). destruct (mro_head w0 W0 x LX) as (r & EX).
      assert (DB : decorated_bound type_attr w0 o x = false).
      { unfold BicSpec.decorated_bound. unfold BicSpec.decorated in DX. destruct (type_attr o (name_of w0 x)) as [[ | | ]|]; try reflexivity. rewrite DX. apply andb_false_r. }
      destruct fuel as [|fuel]; [lia|]. cbn [find_repr]. rewrite (inv_class type_attr w0 w x Iw LX), KX. unfold shows. cbn [find]. rewrite DB, orb_false_r.
      destruct (custom x) eqn:CX.
      + replace (has_repr w0 custom x) with true; auto. unfold has_repr. rewrite EX. cbn. now rewrite CX.
      + apply IH; [intros y J; apply K; right; exact J|cbn in L; lia].
    - destruct (K x (or_introl eq_refl)) as (LX & KX & MX & KM). destruct (mro_head w0 W0 x LX) as (r & EX).
      pose proof DX as T. apply (decorated_iff type_attr w0) in T. destruct T as (b & T). destruct (inv_cached type_attr w0 rank U w o _ _ _ _ Iw T Q) as (k' & Q' & Wr). injection Q' as <-.
      assert (DB : decorated_bound type_attr w0 o x = b) by (unfold BicSpec.decorated_bound; rewrite T, Nat.eqb_refl; apply andb_true_r).
      pose proof (wr_kind _ _ _ _ _ _ _ Wr) as WK. cbn [length] in L.
      assert (IH' : forall f, 2 * length l + M < f -> find_repr w custom f s = Ok (shows type_attr w0 custom o l)) by (apply IH; intros y J; apply K; right; exact J).
      assert (X : forall f, 2 * length l + M < f -> find_repr w custom (S f) (x :: s) = Ok (if custom x then ByCustom x else shows type_attr w0 custom o l)).
      { intros f F. cbn [find_repr]. rewrite (inv_class type_attr w0 w x Iw LX), KX. destruct (custom x); auto. }
      assert (HX : custom x = true -> has_repr w0 custom x = true) by (intros CX; unfold has_repr; rewrite EX; cbn; now rewrite CX).
      destruct fuel as [|[|fuel]]; try lia. assert (LF : 2 * length l + M < fuel) by lia. assert (LM : length (mro_of x) < S fuel) by lia. destruct b.
      + rewrite (fr_bound (S fuel) k o x (x :: s) WK), (inv_class type_attr w0 w x Iw LX). fold (mro_of x). rewrite (plain_find (mro_of x) KM _ LM), (X fuel LF).
        unfold shows. cbn [find]. rewrite DB, has_repr_find. destruct (find custom (mro_of x)) as [y|] eqn:FD; cbn [rbind andb negb].
        * rewrite orb_false_r. destruct (custom x) eqn:CX; [|reflexivity]. now rewrite has_repr_find, FD.
        * rewrite orb_true_r, has_repr_find, FD. reflexivity.
      + rewrite (fr_unbound (S fuel) k x (x :: s) WK), (X fuel LF). unfold shows. cbn [find]. rewrite DB. cbn [andb]. rewrite orb_false_r. destruct (custom x) eqn:CX; [|reflexivity]. now rewrite HX.
  Qed.
End Proof.

(** * What repr() shows, for every program that decorates classes as documented, whichever classes have a __repr__, and after every history *)
Theorem C144_repr_exact type_attr w0 rank :
  (forall c, c < length (classes w0) -> class_ok w0 c) -> (forall o, usage type_attr w0 o (rank o)) ->
  forall w o n b c fuel w' k, history type_attr w0 w -> type_attr o n = Some (VWorker b c) -> access type_attr fuel w o n = Ok (w', VClass k) ->
  forall (custom : cid -> bool), (forall x, In x (mro_of w0 c) -> c_kind (the_class w0 x) = Plain) ->
  forall w'' fuel', history type_attr w' w'' -> 3 * length (mro_of w0 c) < fuel' ->
  find_repr w'' custom fuel' (c_mro (the_class w'' k)) = Ok (shows type_attr w0 custom o (mro_of w0 c)) /\ c_name (the_class w'' k) = name_of w0 c.
Proof.
  intros W0 U w o n b c fuel w' k H T A custom KIND w'' fuel' H'' F. destruct (history_inv type_attr w0 rank W0 U w0 w (inv_w0 type_attr w0) H) as (I & X).
  pose proof (access_spec type_attr w0 rank W0 U fuel w o n b c I T) as P. rewrite A in P. destruct P as (I' & _ & _ & k' & Q & E & Wr). injection Q as <-.
  destruct (history_inv type_attr w0 rank W0 U w' w'' I' H'') as (I'' & X''). destruct (u_own_name _ _ _ _ (U o) _ _ _ T) as (L & _).
  pose proof (wrapped_ext _ _ _ _ _ _ _ _ X'' Wr) as Wr''. split; [|apply Wr''].
  apply (doubled_find type_attr w0 rank W0 U w'' o I'' custom (length (mro_of w0 c))); [apply Wr''| |lia].
  intros x J. pose proof (mro_subseq w0 W0 c L x J) as SX. split; [pose proof (mro_le w0 W0 c L x J); lia|]. split; [apply KIND, J|]. split; [apply subseq_length, SX|].
  intros y JY. pose proof (subseq_in _ _ _ SX JY) as JC. split; [pose proof (mro_le w0 W0 c L y JC); lia|apply KIND, JC].
Qed.
Print Assumptions C144_repr_exact.

Lemma mro_self w0 c : (forall c, c < length (classes w0) -> class_ok w0 c) -> c < length (classes w0) -> exists r, mro_of w0 c = c :: r.
Proof. intros W L. apply mro_head; auto. Qed.
Lemma existsb_none {A} (p : A -> bool) l : existsb p l = false -> forall x, In x l -> p x = false.
Proof. intros E x J. destruct (p x) eqn:PX; auto. assert (existsb p l = true) by (apply existsb_exists; eauto). congruence. Qed.

(** A class without a custom __repr__, decorated with BoundInnerClass: repr() names the module and name of the class, and the outer object (None if it is gone). *)
Theorem C144_bound_repr type_attr w0 rank :
  (forall c, c < length (classes w0) -> class_ok w0 c) -> (forall o, usage type_attr w0 o (rank o)) ->
  forall w o n c fuel w' k, history type_attr w0 w -> type_attr o n = Some (VWorker true c) -> access type_attr fuel w o n = Ok (w', VClass k) ->
  forall (custom : cid -> bool), (forall x, In x (mro_of w0 c) -> c_kind (the_class w0 x) = Plain) -> (forall x, In x (mro_of w0 c) -> custom x = false) ->
  forall w'' fuel', history type_attr w' w'' -> 3 * length (mro_of w0 c) < fuel' ->
  forall modname qualname alive repr_obj repr_custom addr,
  repr_instance w'' custom modname qualname alive repr_obj repr_custom addr fuel' k =
    Ok (u "<" ++ modname c ++ u "." ++ name_of w0 c ++ u " object bound to " ++ (if alive o then repr_obj o else u "None") ++ u " at " ++ addr ++ u ">").
Proof.
  intros W0 U w o n c fuel w' k H T A custom KIND NC w'' fuel' H'' F modname qualname alive repr_obj repr_custom addr.
  destruct (C144_repr_exact type_attr w0 rank W0 U w o n true c fuel w' k H T A custom KIND w'' fuel' H'' F) as (E & EN).
  destruct (u_own_name _ _ _ _ (U o) _ _ _ T) as (L & N & _). destruct (mro_head w0 W0 c L) as (r & EM).
  assert (HN : has_repr w0 custom c = false) by (unfold has_repr; destruct (existsb custom (mro_of w0 c)) eqn:EX; auto; apply existsb_exists in EX; destruct EX as (x & J & CX); rewrite (NC x J) in CX; discriminate).
  assert (DB : decorated_bound type_attr w0 o c = true) by (unfold decorated_bound; rewrite N, T, Nat.eqb_refl; reflexivity).
  unfold repr_instance. rewrite E. unfold shows. rewrite EM. cbn [find]. rewrite DB, HN. cbn [negb andb]. rewrite orb_true_r. cbn [rmap]. unfold wrapper_repr. rewrite EN, HN. cbn [concat]. now rewrite app_nil_r.
Qed.
Print Assumptions C144_bound_repr.

(** Without a custom __repr__ and without a class decorated with BoundInnerClass (the class itself being decorated with UnboundInnerClass): that of object. *)
Theorem C144_unbound_repr type_attr w0 rank :
  (forall c, c < length (classes w0) -> class_ok w0 c) -> (forall o, usage type_attr w0 o (rank o)) ->
  forall w o n b c fuel w' k, history type_attr w0 w -> type_attr o n = Some (VWorker b c) -> access type_attr fuel w o n = Ok (w', VClass k) ->
  forall (custom : cid -> bool), (forall x, In x (mro_of w0 c) -> c_kind (the_class w0 x) = Plain) ->
  (forall x, In x (mro_of w0 c) -> custom x = false /\ decorated_bound type_attr w0 o x = false) ->
  forall w'' fuel', history type_attr w' w'' -> 3 * length (mro_of w0 c) < fuel' ->
  forall modname qualname alive repr_obj repr_custom addr,
  repr_instance w'' custom modname qualname alive repr_obj repr_custom addr fuel' k = Ok (u "<" ++ modname k ++ u "." ++ qualname k ++ u " object at " ++ addr ++ u ">").
Proof.
  intros W0 U w o n b c fuel w' k H T A custom KIND NC w'' fuel' H'' F modname qualname alive repr_obj repr_custom addr.
  destruct (C144_repr_exact type_attr w0 rank W0 U w o n b c fuel w' k H T A custom KIND w'' fuel' H'' F) as (E & _).
  unfold repr_instance. rewrite E. unfold shows.
  assert (G : find (fun x => custom x || decorated_bound type_attr w0 o x && negb (has_repr w0 custom x)) (mro_of w0 c) = None).
  { clear -NC. induction (mro_of w0 c) as [|x l IH]; [reflexivity|]. cbn [find]. destruct (NC x (or_introl eq_refl)) as (-> & ->). apply IH. intros y J. apply NC. right. exact J. }
  now rewrite G.
Qed.
Print Assumptions C144_unbound_repr.

(** A class with a custom __repr__, its own or inherited: that is used, if no class decorated with BoundInnerClass but without any __repr__ is in front of it. *)
Theorem C144_custom_repr_partial type_attr w0 rank :
  (forall c, c < length (classes w0) -> class_ok w0 c) -> (forall o, usage type_attr w0 o (rank o)) ->
  forall w o n b c fuel w' k, history type_attr w0 w -> type_attr o n = Some (VWorker b c) -> access type_attr fuel w o n = Ok (w', VClass k) ->
  forall (custom : cid -> bool), (forall x, In x (mro_of w0 c) -> c_kind (the_class w0 x) = Plain) ->
  forall before y after, mro_of w0 c = before ++ y :: after -> custom y = true -> (forall x, In x before -> custom x = false) ->
  (forall x, In x before -> decorated_bound type_attr w0 o x = true -> exists z, In z (mro_of w0 x) /\ custom z = true) ->
  forall w'' fuel', history type_attr w' w'' -> 3 * length (mro_of w0 c) < fuel' ->
  forall modname qualname alive repr_obj repr_custom addr,
  repr_instance w'' custom modname qualname alive repr_obj repr_custom addr fuel' k = Ok (repr_custom y).
Proof.
  intros W0 U w o n b c fuel w' k H T A custom KIND before y after EM CY NB DBF w'' fuel' H'' F modname qualname alive repr_obj repr_custom addr.
  destruct (C144_repr_exact type_attr w0 rank W0 U w o n b c fuel w' k H T A custom KIND w'' fuel' H'' F) as (E & EN).
  destruct (u_own_name _ _ _ _ (U o) _ _ _ T) as (L & _).
  assert (JY : In y (mro_of w0 c)) by (rewrite EM; apply in_or_app; right; left; reflexivity).
  assert (LY : y < length (classes w0)) by (pose proof (mro_le w0 W0 c L y JY); lia).
  destruct (mro_head w0 W0 y LY) as (r & EY).
  assert (HY : has_repr w0 custom y = true) by (unfold has_repr; rewrite EY; cbn; now rewrite CY).
  unfold repr_instance. rewrite E. unfold shows. rewrite EM. clear EM E JY.
  assert (G : find (fun x => custom x || decorated_bound type_attr w0 o x && negb (has_repr w0 custom x)) (before ++ y :: after) = Some y).
  { induction before as [|x before IH]; cbn [app find]; [now rewrite CY|]. rewrite (NB x (or_introl eq_refl)). cbn [orb].
    destruct (decorated_bound type_attr w0 o x) eqn:DB; cbn [andb].
    - destruct (DBF x (or_introl eq_refl) DB) as (z & JZ & CZ). replace (has_repr w0 custom x) with true by (symmetry; apply existsb_exists; eauto). cbn [negb].
      apply IH; intros q J; [apply NB|apply DBF]; right; exact J.
    - apply IH; intros q J; [apply NB|apply DBF]; right; exact J. }
  now rewrite G, HY.
Qed.
Print Assumptions C144_custom_repr_partial.

(** * It is not always used *)
(** object; class A; class M, which has a __repr__; class C(A, M).  A and C are decorated with BoundInnerClass.  repr(Outer.C) would be that of M, but o.A,
    which is in front of M, has a __repr__ of its own: an inherited custom __repr__ is lost by binding. *)
Definition mixin_w : world := World
  [Cls (u "object") [] [0] Plain; Cls (u "A") [0] [1; 0] Plain; Cls (u "M") [0] [2; 0] Plain; Cls (u "C") [1; 2] [3; 1; 2; 0] Plain] (fun _ _ => None).
Definition mixin_attr (o : oid) (n : str) : option value :=
  if str_eqb n (u "A") then Some (VWorker true 1) else if str_eqb n (u "C") then Some (VWorker true 3) else None.
Theorem C144_custom_repr_refuted : exists w', access mixin_attr 9 mixin_w 0 (u "C") = Ok (w', VClass 5) /\
  find_repr w' (Nat.eqb 2) 99 (mro_of mixin_w 3) = Ok (ByCustom 2) /\                     (* repr() of an instance of Outer.C *)
  find_repr w' (Nat.eqb 2) 99 (c_mro (the_class w' 5)) = Ok (ByBound 0 1) /\              (* and of o.C *)
  repr_instance w' (Nat.eqb 2) (fun _ => u "m") (fun _ => u "q") (fun _ => true) (fun _ => u "OUTER") (fun _ => u "CUSTOM") (u "0x1") 99 5 = Ok (u "<m.C object bound to OUTER at 0x1>").
Proof. eexists. repeat split; vm_compute; reflexivity. Qed.
Print Assumptions C144_custom_repr_refuted.

(** The program of C83: no class has a __repr__; A has one; C has one (o.D finds o.B's first, as B and A have none); all with o.D = class 8 *)
Example C144_witness : exists w', access ex_attr 9 ex_w 0 (u "D") = Ok (w', VClass 8) /\
  (forall x, In x (mro_of ex_w 4) -> c_kind (the_class ex_w x) = Plain) /\
  find_repr w' (fun _ => false) 99 (c_mro (the_class w' 8)) = Ok (ByBound 0 4) /\
  find_repr w' (Nat.eqb 1) 99 (c_mro (the_class w' 8)) = Ok (ByCustom 1) /\
  find_repr w' (Nat.eqb 3) 99 (c_mro (the_class w' 8)) = Ok (ByBound 0 2) /\
  repr_instance w' (fun _ => false) (fun _ => u "m") (fun _ => u "q") (fun _ => false) (fun _ => u "OUTER") (fun _ => u "CUSTOM") (u "0x1") 99 8 = Ok (u "<m.D object bound to None at 0x1>").
Proof.
  eexists. split; [vm_compute; reflexivity|]. split; [|repeat split; vm_compute; reflexivity].
  intros x J. cbn in J. repeat (destruct J as [<-|J]; [reflexivity|]). destruct J.
Qed.
