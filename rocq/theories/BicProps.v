(** Properties C82-C84: BoundInnerClass and UnboundInnerClass. *)
From Verif Require Import PyStrProof BicModel BicSpec BicProof BicProof2 BicProof3.

(** ** C82: what o.Inner is *)
(** For every program that decorates classes as documented, every object o, and after every history of attribute reads and class statements:
    reading a decorated class through o succeeds (given enough stack); it gives a new class named like the class and with it as first base, bound to o
    (or, for UnboundInnerClass, not bound); it gives that same class ever after; no other object or name ever gives that class; and through the
    class of o it is the class itself. *)
Theorem C82_bound_class_identity_partial type_attr w0 rank :
  (forall c, c < length (classes w0) -> class_ok w0 c) -> (forall o, usage type_attr w0 o (rank o)) ->
  forall w o n b c, history type_attr w0 w -> type_attr o n = Some (VWorker b c) ->
  (forall fuel, rank o c < fuel -> exists w' k, access type_attr fuel w o n = Ok (w', VClass k)) /\
  class_access (type_attr o n) = Ok (VClass c) /\
  forall fuel w' v, access type_attr fuel w o n = Ok (w', v) ->
    exists k, v = VClass k /\ length (classes w0) <= k /\
      c_name (the_class w' k) = c_name (the_class w0 c) /\
      c_kind (the_class w' k) = (if b then BoundTo o c else UnboundIn c) /\
      (exists t, c_bases (the_class w' k) = c :: t) /\
      forall w'', history type_attr w' w'' ->
        (forall fuel', access type_attr fuel' w'' o n = Ok (w'', VClass k)) /\
        the_class w'' k = the_class w' k /\
        forall o' n' b' c' fuel' w3, type_attr o' n' = Some (VWorker b' c') -> access type_attr fuel' w'' o' n' = Ok (w3, VClass k) -> o' = o /\ n' = n.
Proof.
  intros W0 U w o n b c H T. destruct (history_inv type_attr w0 rank W0 U w0 w (inv_w0 type_attr w0) H) as (I & X). split; [|split].
  - intros fuel F. pose proof (access_spec type_attr w0 rank W0 U fuel w o n b c I T) as P. destruct (access type_attr fuel w o n) as [[w' v]|e].
    + destruct P as (_ & _ & _ & k & -> & _). exists w', k. reflexivity.
    + destruct P as (_ & P & _). lia.
  - rewrite T. reflexivity.
  - intros fuel w' v A. pose proof (access_spec type_attr w0 rank W0 U fuel w o n b c I T) as P. rewrite A in P. destruct P as (I' & X' & _ & k & -> & E & Wr).
    pose proof (wr_lt _ _ _ _ _ _ _ Wr) as LK.
    exists k. split; [reflexivity|]. split; [apply LK|]. split; [apply Wr|]. split; [apply Wr|]. split; [apply Wr|].
    intros w'' H''. destruct (history_inv type_attr w0 rank W0 U w' w'' I' H'') as (I'' & X''). pose proof (proj2 X'' _ _ _ E) as E''. split; [|split].
    + intros fuel'. unfold access. rewrite E''. reflexivity.
    + apply ext_class; [exact X''|lia].
    + intros o' n' b' c' fuel' w3 T' A'. pose proof (access_spec type_attr w0 rank W0 U fuel' w'' o' n' b' c' I'' T') as P. rewrite A' in P. destruct P as (I3 & X3 & _ & k' & Q & E3 & _). injection Q as <-.
      pose proof (proj2 X3 _ _ _ E'') as E4. destruct (u_own_name _ _ _ _ (U o) _ _ _ T) as (_ & _ & N1). destruct (u_own_name _ _ _ _ (U o') _ _ _ T') as (_ & _ & N2).
      destruct (i_inj _ _ _ I3 o n o' n' k N1 N2 E4 E3) as (<- & <-). auto.
Qed.

(** ** C83: the method resolution order *)
(** The bound class has the method resolution order of the class itself, with, in front of each class that is decorated for o, the class that o
    has for it - which the object already has by then.  (So the statement "class D(B, C)" and o.D agree about which methods come first, and
    issubclass(o.D, o.B) and issubclass(o.D, Outer.B) hold.) *)
Theorem C83_method_resolution_order type_attr w0 rank :
  (forall c, c < length (classes w0) -> class_ok w0 c) -> (forall o, usage type_attr w0 o (rank o)) ->
  forall w o n b c fuel w' k, history type_attr w0 w -> type_attr o n = Some (VWorker b c) -> access type_attr fuel w o n = Ok (w', VClass k) ->
  exists of_o : cid -> cid,
    (forall x, In x (mro_of w0 c) -> decorated type_attr w0 o x = true -> forall fuel', access type_attr fuel' w' o (name_of w0 x) = Ok (w', VClass (of_o x))) /\
    c_mro (the_class w' k) = flat_map (fun x => if decorated type_attr w0 o x then [of_o x; x] else [x]) (mro_of w0 c).
Proof.
  intros W0 U w o n b c fuel w' k H T A. destruct (history_inv type_attr w0 rank W0 U w0 w (inv_w0 type_attr w0) H) as (I & X).
  pose proof (access_spec type_attr w0 rank W0 U fuel w o n b c I T) as P. rewrite A in P. destruct P as (I' & _ & _ & k' & Q & E & Wr). injection Q as <-.
  exists (fun x => match dict w' o (name_of w0 x) with Some (VClass k) => k | _ => 0 end). pose proof (wr_mro _ _ _ _ _ _ _ Wr) as D. clear -D. split.
  - induction D as [|y l l' DY D IH|y q l l' DY EQ D IH]; intros x J DX fuel'; [destruct J| |].
    + destruct J as [-> |J]; [congruence|apply IH; assumption].
    + destruct J as [<- |J]; [unfold access; rewrite EQ; reflexivity|apply IH; assumption].
  - induction D as [|y l l' DY D IH|y q l l' DY EQ D IH]; [reflexivity| |]; cbn [flat_map]; rewrite DY.
    + rewrite IH. reflexivity.
    + rewrite EQ, IH. reflexivity.
Qed.

(** Every other attribute of o is what it was, whatever has been read, and reading it changes nothing. *)
Theorem C82_other_attributes type_attr w0 rank :
  (forall c, c < length (classes w0) -> class_ok w0 c) -> (forall o, usage type_attr w0 o (rank o)) ->
  forall w o n fuel, history type_attr w0 w -> (forall b c, type_attr o n <> Some (VWorker b c)) ->
  access type_attr fuel w o n =
    match dict w0 o n with
    | Some v => Ok (w, v)
    | None => match type_attr o n with Some v => Ok (w, v) | None => Err AttributeError end
    end.
Proof.
  intros W0 U w o n fuel H N. destruct (history_inv type_attr w0 rank W0 U w0 w (inv_w0 type_attr w0) H) as (I & X).
  assert (D : dict w o n = dict w0 o n).
  { destruct (dict w0 o n) as [v|] eqn:E0; [destruct X as [_ X]; eauto|]. destruct (dict w o n) as [v|] eqn:E; [|reflexivity].
    destruct (i_entry _ _ _ I _ _ _ E) as [E'|(b & c & k & _ & T & _)]; [congruence|destruct (N _ _ T)]. }
  unfold access. rewrite D. destruct (dict w0 o n); [reflexivity|]. destruct (type_attr o n) as [[| | ]|] eqn:T; try reflexivity. destruct (N _ _ eq_refl).
Qed.

(** ** C84: constructing an instance *)
(** Every __init__ of the classes in the method resolution order of the class runs exactly once, in that order, if each calls super().__init__();
    those of classes decorated with BoundInnerClass get o as extra argument and the others get none.  This supposes that each class decorated
    with BoundInnerClass has its own __init__, and that o is alive. *)
Theorem C84_init_gets_outer_partial type_attr w0 rank :
  (forall c, c < length (classes w0) -> class_ok w0 c) -> (forall o, usage type_attr w0 o (rank o)) ->
  forall w o n b c fuel w' k, history type_attr w0 w -> type_attr o n = Some (VWorker b c) -> access type_attr fuel w o n = Ok (w', VClass k) ->
  forall (defines takes_outer : cid -> bool) (alive : oid -> bool),
  (forall x, In x (mro_of w0 c) -> c_kind (the_class w0 x) = Plain) ->
  (forall x, In x (mro_of w0 c) -> if decorated_bound type_attr w0 o x then defines x = true /\ takes_outer x = true else takes_outer x = false) ->
  alive o = true ->
  forall w'' fuel', history type_attr w' w'' -> 2 * length (mro_of w0 c) < fuel' ->
  construct w'' defines takes_outer alive fuel' k =
    Ok (map (fun x => (x, if decorated_bound type_attr w0 o x then Some (Some o) else None)) (filter defines (mro_of w0 c))).
Proof.
  intros W0 U w o n b c fuel w' k H T A defines takes_outer alive KIND INIT AL w'' fuel' H'' F. destruct (history_inv type_attr w0 rank W0 U w0 w (inv_w0 type_attr w0) H) as (I & X).
  pose proof (access_spec type_attr w0 rank W0 U fuel w o n b c I T) as P. rewrite A in P. destruct P as (I' & _ & _ & k' & Q & E & Wr). injection Q as <-.
  destruct (history_inv type_attr w0 rank W0 U w' w'' I' H'') as (I'' & X''). destruct (u_own_name _ _ _ _ (U o) _ _ _ T) as (L & _).
  rewrite (construct_spec type_attr w0 rank W0 U w'' o I'' defines takes_outer alive c KIND INIT L b k fuel' (wrapped_ext _ _ _ _ _ _ _ _ X'' Wr) F).
  unfold ev. rewrite AL. reflexivity.
Qed.

(** ** An instance: object; class A; class B(A); class C(A); class D(B, C).  A, B and D are decorated with BoundInnerClass, C with UnboundInnerClass. *)
Definition ex_w : world := World
  [Cls (u "object") [] [0] Plain; Cls (u "A") [0] [1; 0] Plain; Cls (u "B") [1] [2; 1; 0] Plain; Cls (u "C") [1] [3; 1; 0] Plain; Cls (u "D") [2; 3] [4; 2; 3; 1; 0] Plain]
  (fun _ _ => None).
Definition ex_attr (o : oid) (n : str) : option value :=
  if str_eqb n (u "A") then Some (VWorker true 1) else if str_eqb n (u "B") then Some (VWorker true 2)
  else if str_eqb n (u "C") then Some (VWorker false 3) else if str_eqb n (u "D") then Some (VWorker true 4) else None.
Lemma ex_class_ok : forall c, c < length (classes ex_w) -> class_ok ex_w c.
Proof.
  intros c L. cbn in L. destruct c as [|[|[|[|[|c]]]]]; [| | | | |lia]; (split; [repeat constructor|eexists; split; vm_compute; reflexivity]).
Qed.
Lemma ex_attr_cases o n v : ex_attr o n = Some v -> (n = u "A" /\ v = VWorker true 1) \/ (n = u "B" /\ v = VWorker true 2) \/ (n = u "C" /\ v = VWorker false 3) \/ (n = u "D" /\ v = VWorker true 4).
Proof.
  unfold ex_attr. destruct (str_eqb n (u "A")) eqn:E1; [apply str_eqb_eq in E1; intros H; injection H as <-; auto|].
  destruct (str_eqb n (u "B")) eqn:E2; [apply str_eqb_eq in E2; intros H; injection H as <-; auto|].
  destruct (str_eqb n (u "C")) eqn:E3; [apply str_eqb_eq in E3; intros H; injection H as <-; auto|].
  destruct (str_eqb n (u "D")) eqn:E4; [apply str_eqb_eq in E4; intros H; injection H as <-; auto 6|]. discriminate.
Qed.
Lemma ex_decorated o c : decorated ex_attr ex_w o c = true -> c = 1 \/ c = 2 \/ c = 3 \/ c = 4.
Proof.
  unfold decorated. destruct (ex_attr o (name_of ex_w c)) as [v|] eqn:E; [|discriminate]. apply ex_attr_cases in E.
  destruct E as [(_ & ->)|[(_ & ->)|[(_ & ->)|(_ & ->)]]]; intros H; apply Nat.eqb_eq in H; subst; auto.
Qed.
Lemma ex_usage : forall o, usage ex_attr ex_w o (fun c => c).
Proof.
  intros o. split.
  - intros n b c H. apply ex_attr_cases in H. destruct H as [(-> & H)|[(-> & H)|[(-> & H)|(-> & H)]]]; injection H as -> ->; (split; [cbn; lia|]); split; reflexivity.
  - intros c b x DC IB IX DX. apply ex_decorated in DC. destruct DC as [-> |[-> |[-> | ->]]]; cbn in IB;
      repeat match goal with H : _ \/ _ |- _ => destruct H as [H|H] | H : False |- _ => destruct H end; subst b; try reflexivity; cbn in IX; destruct IX as [<- |[]]; discriminate.
  - intros c b k _ _ _ [H|H]; [discriminate|]. apply ex_attr_cases in H. destruct H as [(_ & H)|[(_ & H)|[(_ & H)|(_ & H)]]]; discriminate.
  - intros c b c' d DC IB _ H. apply ex_decorated in DC. destruct DC as [-> |[-> |[-> | ->]]]; cbn in IB;
      repeat match goal with H : _ \/ _ |- _ => destruct H as [H|H] | H : False |- _ => destruct H end; subst b; vm_compute in H; try discriminate; injection H as <- <-; lia.
Qed.
(** o.D makes o.A, o.B, o.C and o.D (classes 5, 6, 7 and 8) *)
Example C83_example : exists w', access ex_attr 9 ex_w 0 (u "D") = Ok (w', VClass 8) /\ c_mro (the_class w' 8) = [8; 4; 6; 2; 7; 3; 5; 1; 0] /\
  construct w' (fun c => 0 <? c) (fun c => existsb (Nat.eqb c) [1; 2; 4]) (fun _ => true) 99 8 = Ok [(4, Some (Some 0)); (2, Some (Some 0)); (3, None); (1, Some (Some 0))].
Proof. eexists. split; [vm_compute; reflexivity|]. split; [vm_compute; reflexivity|vm_compute; reflexivity]. Qed.
Example C84_example : forall x, In x (mro_of ex_w 4) ->
  c_kind (the_class ex_w x) = Plain /\ if decorated_bound ex_attr ex_w 0 x then (0 <? x) = true /\ existsb (Nat.eqb x) [1; 2; 4] = true else existsb (Nat.eqb x) [1; 2; 4] = false.
Proof.
  intros x I. cbn in I. repeat match goal with H : _ \/ _ |- _ => destruct H as [H|H] | H : False |- _ => destruct H end; subst x; vm_compute; auto.
Qed.

(** ** Where the properties fail *)
(** The cache is by the name of the class, not of the attribute: with "Alias = BoundInnerClass(Inner)" every o.Alias is a new class. *)
Definition alias_attr (o : oid) (n : str) : option value := if str_eqb n (u "Alias") then Some (VWorker true 1) else None.
Definition inner_w : world := World [Cls (u "object") [] [0] Plain; Cls (u "Inner") [0] [1; 0] Plain] (fun _ _ => None).
Theorem C82_alias_refuted : exists w1 w2, access alias_attr 9 inner_w 0 (u "Alias") = Ok (w1, VClass 2) /\ access alias_attr 9 w1 0 (u "Alias") = Ok (w2, VClass 3).
Proof. eexists _, _. split; [vm_compute; reflexivity|vm_compute; reflexivity]. Qed.
(** Two threads: one has looked in the __dict__ of o and not found the class, and the other reads o.Inner before __get__ runs in the first.
    They get different classes, and the object keeps the second. *)
Definition inner_attr (o : oid) (n : str) : option value := if str_eqb n (u "Inner") then Some (VWorker true 1) else None.
Theorem C82_threads_refuted : exists w1 w2, dict inner_w 0 (u "Inner") = None /\ access inner_attr 9 inner_w 0 (u "Inner") = Ok (w1, VClass 2) /\
  worker_get inner_attr 9 w1 0 true 1 = Ok (w2, 3) /\ access inner_attr 9 w2 0 (u "Inner") = Ok (w2, VClass 3).
Proof. eexists _, _. split; [reflexivity|]. split; [vm_compute; reflexivity|]. split; [vm_compute; reflexivity|vm_compute; reflexivity]. Qed.
(** The bases are looked up by name: with "class Inner(lib.Other)" and "class Other(lib.Inner)" decorated in one class, where lib.Inner and lib.Other are
    ordinary classes, o.Inner is infinite recursion, whatever the recursion limit. *)
Definition mutual_w : world := World
  [Cls (u "object") [] [0] Plain; Cls (u "Other") [0] [1; 0] Plain; Cls (u "Inner") [0] [2; 0] Plain; Cls (u "Inner") [1] [3; 1; 0] Plain; Cls (u "Other") [2] [4; 2; 0] Plain]
  (fun _ _ => None).
Definition mutual_attr (o : oid) (n : str) : option value := if str_eqb n (u "Inner") then Some (VWorker true 3) else if str_eqb n (u "Other") then Some (VWorker true 4) else None.
Theorem C82_mutual_names_refuted : forall fuel, access mutual_attr fuel mutual_w 0 (u "Inner") = Err RecursionError.
Proof.
  assert (G : forall fuel, worker_get mutual_attr fuel mutual_w 0 true 3 = Err RecursionError /\ worker_get mutual_attr fuel mutual_w 0 true 4 = Err RecursionError).
  { induction fuel as [|fuel (IH1 & IH2)]; [split; reflexivity|]. split; cbn [worker_get]; change (the_class mutual_w 3) with (Cls (u "Inner") [1] [3; 1; 0] Plain); change (the_class mutual_w 4) with (Cls (u "Other") [2] [4; 2; 0] Plain); cbn [c_name c_bases bases_loop].
    - change (c_name (the_class mutual_w 1)) with (u "Other"). change (str_eqb (u "Other") (u "Inner")) with false. unfold getattr_none. change (dict mutual_w 0 (u "Other")) with (@None value). change (mutual_attr 0 (u "Other")) with (Some (VWorker true 4)). cbn [rbind rmap]. rewrite IH2. reflexivity.
    - change (c_name (the_class mutual_w 2)) with (u "Inner"). change (str_eqb (u "Inner") (u "Other")) with false. unfold getattr_none. change (dict mutual_w 0 (u "Inner")) with (@None value). change (mutual_attr 0 (u "Inner")) with (Some (VWorker true 3)). cbn [rbind rmap]. rewrite IH1. reflexivity. }
  intros fuel. unfold access. change (dict mutual_w 0 (u "Inner")) with (@None value). change (mutual_attr 0 (u "Inner")) with (Some (VWorker true 3)). pose proof (proj1 (G fuel)) as E. cbv zeta. cbn [rmap rbind]. 
  rewrite E. reflexivity.
Qed.
(** The name of every base is looked up, [object] too: an outer class with an attribute "object" that is the class object makes o.Inner raise IndexError. *)
Definition object_attr (o : oid) (n : str) : option value := if str_eqb n (u "Inner") then Some (VWorker true 1) else if str_eqb n (u "object") then Some (VClass 0) else None.
Theorem C82_object_attribute_refuted : access object_attr 9 inner_w 0 (u "Inner") = Err IndexError.
Proof. vm_compute. reflexivity. Qed.
(** A class decorated with BoundInnerClass that has no __init__ (nor inherits one with an outer parameter) cannot be instantiated: object.__init__ gets o *)
Theorem C84_no_init_refuted : exists w', access inner_attr 9 inner_w 0 (u "Inner") = Ok (w', VClass 2) /\ construct w' (fun _ => false) (fun _ => false) (fun _ => true) 99 2 = Err TypeError.
Proof. eexists. split; [vm_compute; reflexivity|vm_compute; reflexivity]. Qed.
(** class A; class B(A) without __init__; class C(A); class D(B, C), all decorated: o.D() leaves out C.__init__, which D() with undecorated classes would run *)
Definition diamond_attr (o : oid) (n : str) : option value := match ex_attr o n with Some (VWorker _ c) => Some (VWorker true c) | v => v end.
Definition init_not_B (c : cid) : bool := existsb (Nat.eqb c) [1; 3; 4].
Theorem C84_skipped_init_refuted : exists w', access diamond_attr 9 ex_w 0 (u "D") = Ok (w', VClass 8) /\
  construct w' init_not_B init_not_B (fun _ => true) 99 8 = Ok [(4, Some (Some 0)); (1, Some (Some 0))] /\
  construct ex_w init_not_B (fun _ => false) (fun _ => true) 99 4 = Ok [(4, None); (3, None); (1, None)].
Proof. eexists. split; [vm_compute; reflexivity|]. split; [vm_compute; reflexivity|vm_compute; reflexivity]. Qed.
(** The class keeps only a weak reference to o: in "Outer().Inner()" the outer object is gone by the time __init__ runs, and it gets None *)
Theorem C84_outer_collected_refuted : exists w', access inner_attr 9 inner_w 0 (u "Inner") = Ok (w', VClass 2) /\
  construct w' (fun c => c =? 1) (fun c => c =? 1) (fun _ => false) 99 2 = Ok [(1, Some None)].
Proof. eexists. split; [vm_compute; reflexivity|vm_compute; reflexivity]. Qed.

Print Assumptions C82_bound_class_identity_partial.
Print Assumptions C83_method_resolution_order.
Print Assumptions C84_init_gets_outer_partial.
Print Assumptions C82_mutual_names_refuted.
Print Assumptions C82_other_attributes.
