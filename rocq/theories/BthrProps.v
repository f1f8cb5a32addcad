(** Property C121: bound inner classes in several threads. *)
From Verif Require Import PyStrProof BicModel BicSpec BicProof BicProof2 BicProof3 BicProps BthrModel BthrSpec BthrProof BthrProof2 BthrProof3 BthrProof4.

(** ** Every interleaving *)
(** For every program that decorates classes as documented, and every interleaving of any number of threads that read attributes of any objects
    and run class statements: a read of a decorated class that succeeds gives a new class, named like the class, with it as first base, and bound to
    that object (or, for UnboundInnerClass, not bound); the object has a class in its __dict__ from then on, so that no later read makes one; no other object or
    name gives that class; and the only exception is a TypeError. *)
Theorem C121_every_interleaving type_attr w0 rank :
  (forall c, c < length (classes w0) -> class_ok w0 c) -> (forall o, usage type_attr w0 o (rank o)) ->
  forall l s es, exec type_attr l (idle w0) = (s, es) ->
  forall t o n r b c, In (Ended t o n r) es -> type_attr o n = Some (VWorker b c) ->
  match r with
  | Ok v => exists k, v = VClass k /\ length (classes w0) <= k < length (classes (s_world s)) /\
      c_name (the_class (s_world s) k) = c_name (the_class w0 c) /\
      c_kind (the_class (s_world s) k) = (if b then BoundTo o c else UnboundIn c) /\
      (exists bases, c_bases (the_class (s_world s) k) = c :: bases) /\
      (forall t' o' n' b' c', In (Ended t' o' n' (Ok v)) es -> type_attr o' n' = Some (VWorker b' c') -> o' = o /\ n' = n)
  | Err e => e = TypeError
  end.
Proof.
  intros W0 U l s es X t o n r b c J T. destruct (reach_ok type_attr w0 rank W0 U l) as (own & S & E). rewrite X in S, E. cbn [fst snd] in S, E. rewrite Forall_forall in E. pose proof (E _ J b c T) as P. destruct r as [v|e]; [|exact P]. destruct P as (k & -> & [M1 M2 M3 M4 M5]).
  exists k. split; [reflexivity|]. split; [exact M1|]. split; [exact M2|]. split; [exact M3|]. split; [exact M4|]. intros t' o' n' b' c' J' T'. destruct (E _ J' b' c' T') as (k' & Q & M'). injection Q as <-. pose proof (m_own _ _ _ _ _ _ _ M') as Q. rewrite M5 in Q. injection Q as <- <-.
  split; [reflexivity|]. destruct (u_own_name _ _ _ _ (U o) _ _ _ T) as (_ & <- & _). destruct (u_own_name _ _ _ _ (U o) _ _ _ T') as (_ & <- & _). reflexivity.
Qed.

Lemma read_leaves type_attr w0 rank :
  (forall c, c < length (classes w0) -> class_ok w0 c) -> (forall o, usage type_attr w0 o (rank o)) ->
  forall l s own, sys_ok type_attr w0 s own -> forall t o n v b c, In (Ended t o n (Ok v)) (snd (exec type_attr l s)) -> type_attr o n = Some (VWorker b c) -> dict (s_world (fst (exec type_attr l s))) o n <> None.
Proof.
  intros W0 U. induction l as [|a l IH]; intros s own S t o n v b c J T; [destruct J|]. cbn [BthrModel.exec] in *. destruct (act_ok type_attr w0 rank W0 U a s own S) as (own1 & _ & _ & S1 & _).
  assert (A : In (Ended t o n (Ok v)) (snd (act type_attr a s)) -> dict (s_world (fst (act type_attr a s))) o n <> None).
  { clear J. intros J. assert (G : forall t' o' n' x, step_post type_attr w0 (s_world s) own o' n' x -> In (Ended t o n (Ok v)) (snd (settle s t' o' n' x)) -> dict (s_world (fst (settle s t' o' n' x))) o n <> None).
    { intros t' o' n' x (own' & _ & P) J'. destruct x as [w' fs|w' r]; [destruct J'|]. destruct J' as [Q|[]]. injection Q as -> -> -> ->. destruct P as (_ & _ & P). destruct (P b c T) as (k & _ & _ & Q). exact Q. }
    destruct a as [t' o' n'|t'|name bases]; cbn [BthrModel.act] in *.
    - destruct (s_reading s t') as [r|]; [destruct J|]. apply G; [apply (start_read_ok type_attr w0 rank U), S|exact J].
    - destruct (s_reading s t') as [r|] eqn:E; [|destruct J]. apply G; [|exact J]. apply (step_read_ok type_attr w0 rank W0 U); [apply S|apply (proj2 S t' r E)].
    - destruct (linearise (s_world s) bases); destruct J. }
  destruct (act type_attr a s) as [s1 e1]. cbn [fst snd] in *. specialize (IH s1 own1 S1 t o n v b c). pose proof (exec_keeps type_attr w0 rank W0 U l s1 own1 o n S1) as K. destruct (exec type_attr l s1) as [s2 e2]. cbn [fst snd] in *. apply in_app_or in J. destruct J as [J|J]; auto.
Qed.

(** A read ends after a bounded number of steps of its own thread, whatever the others do. *)
Theorem C121_wait_free type_attr w0 rank :
  (forall c, c < length (classes w0) -> class_ok w0 c) -> (forall o, usage type_attr w0 o (rank o)) ->
  forall o n, exists bound, forall before after t fs,
    s_reading (fst (exec type_attr before (idle w0))) t = Some (Read o n fs) -> bound < goes t after ->
    exists r, In (Ended t o n r) (snd (exec type_attr after (fst (exec type_attr before (idle w0))))).
Proof.
  intros W0 U o n. exists (match type_attr o n with Some (VWorker _ c) => cost w0 (rank o c) | _ => 0 end). intros before after t fs E G. destruct (reach_ok type_attr w0 rank W0 U before) as (own & S & _).
  pose proof (proj2 S t _ E) as FS. cbn [r_outer r_name r_frames] in FS. destruct (frames_worker type_attr w0 rank U _ _ _ _ _ FS) as (b & c & T). rewrite T in G. pose proof (frames_left type_attr w0 rank W0 U _ _ _ _ _ _ _ T FS) as L.
  apply (exec_ends type_attr w0 rank W0 U t o n after _ own (Read o n fs) S E eq_refl eq_refl). cbn [r_frames]. lia.
Qed.

(** When no thread is in the middle of reading an attribute of o, the classes that have been read through o stay: every later read gives the same class,
    in every interleaving; and o has one for each read that succeeded. *)
Theorem C121_stable_when_quiet type_attr w0 rank :
  (forall c, c < length (classes w0) -> class_ok w0 c) -> (forall o, usage type_attr w0 o (rank o)) ->
  forall before s es o n b c t v, exec type_attr before (idle w0) = (s, es) -> nobody_reads s o -> type_attr o n = Some (VWorker b c) -> In (Ended t o n (Ok v)) es ->
  exists k, dict (s_world s) o n = Some (VClass k) /\ forall after t' r, In (Ended t' o n r) (snd (exec type_attr after s)) -> r = Ok (VClass k).
Proof.
  intros W0 U before s es o n b c t v X Q T J. destruct (reach_ok type_attr w0 rank W0 U before) as (own & S & _). pose proof (read_leaves type_attr w0 rank W0 U before _ _ (idle_ok type_attr w0) t o n v b c) as H. rewrite X in *. cbn [fst snd] in *. specialize (H J T).
  destruct (dict (s_world s) o n) as [v'|] eqn:E; [|congruence]. destruct (ok_cached type_attr w0 rank U _ _ _ _ _ _ _ (proj1 S) T E) as (k & -> & _). exists k. split; [reflexivity|]. intros after t' r J'.
  apply (exec_stable type_attr w0 rank W0 U after s own o n (VClass k) S E) with (t := t'); [|exact J']. intros t0 r0 f H0 EO. destruct (Q t0 r0 H0 EO).
Qed.

(** ** One thread at a time *)
(** If two threads never read attributes of o at the same time then, whatever they do with other objects: every read of a decorated class through o
    succeeds, all give the same class, and its method resolution order is that of the class with the classes that o has in front of the decorated ones. *)
Theorem C121_one_reader type_attr w0 rank :
  (forall c, c < length (classes w0) -> class_ok w0 c) -> (forall o, usage type_attr w0 o (rank o)) ->
  forall o l s es, exec type_attr l (idle w0) = (s, es) -> one_reader type_attr o l (idle w0) ->
  forall t n r b c, In (Ended t o n r) es -> type_attr o n = Some (VWorker b c) ->
  exists k, r = Ok (VClass k) /\ dict (s_world s) o n = Some (VClass k) /\
    exists of_o : cid -> cid, (forall x, In x (mro_of w0 c) -> decorated type_attr w0 o x = true -> dict (s_world s) o (name_of w0 x) = Some (VClass (of_o x))) /\
      c_mro (the_class (s_world s) k) = flat_map (fun x => if decorated type_attr w0 o x then [of_o x; x] else [x]) (mro_of w0 c).
Proof.
  intros W0 U o l s es X O t n r b c J T. destruct (exec_alone type_attr w0 rank W0 U o l _ _ (idle_ok type_attr w0) (idle_alone type_attr w0 rank U o) O) as (_ & A & E). rewrite X in *. cbn [fst snd] in *.
  rewrite Forall_forall in E. destruct (E _ J eq_refl b c T) as (k & -> & D). exists k. split; [reflexivity|]. split; [exact D|]. pose proof (a_entries _ _ _ _ A n b c k T D) as DB. clear -DB.
  exists (fun x => match dict (s_world s) o (name_of w0 x) with Some (VClass k) => k | _ => 0 end). split.
  - induction DB as [|y l l' DY D IH|y q l l' DY EQ D IH]; intros x J DX; [destruct J| |].
    + destruct J as [-> |J]; [congruence|apply IH; assumption].
    + destruct J as [<- |J]; [rewrite EQ; reflexivity|apply IH; assumption].
  - induction DB as [|y l l' DY D IH|y q l l' DY EQ D IH]; [reflexivity| |]; cbn [flat_map]; rewrite DY.
    + rewrite IH at 1. reflexivity.
    + rewrite EQ. rewrite IH at 1. reflexivity.
Qed.

(** ** Bases first *)
(** If the decorated classes that c inherits from directly have been read through o before, one thread at a time - as when there are none - then in every
    interleaving from then on every read of c through o succeeds, and the method resolution order is as with one thread: two threads can get two classes, but
    they differ in nothing else.  And an instance of each runs the __init__ methods that it runs with one thread (C84). *)
Theorem C121_bases_first type_attr w0 rank :
  (forall c, c < length (classes w0) -> class_ok w0 c) -> (forall o, usage type_attr w0 o (rank o)) ->
  forall o before, one_reader type_attr o before (idle w0) -> let s1 := fst (exec type_attr before (idle w0)) in nobody_reads s1 o ->
  forall n b c, type_attr o n = Some (VWorker b c) ->
  (forall base d c', In base (bases_of w0 c) -> name_of w0 base <> n -> type_attr o (name_of w0 base) = Some (VWorker d c') -> dict (s_world s1) o (name_of w0 base) <> None) ->
  forall after s es, exec type_attr after s1 = (s, es) ->
  forall t r, In (Ended t o n r) es ->
  exists k, r = Ok (VClass k) /\ c_kind (the_class (s_world s) k) = (if b then BoundTo o c else UnboundIn c) /\
    (exists of_o : cid -> cid, (forall x, In x (mro_of w0 c) -> decorated type_attr w0 o x = true -> if x =? c then of_o x = k else dict (s_world s1) o (name_of w0 x) = Some (VClass (of_o x))) /\
      c_mro (the_class (s_world s) k) = flat_map (fun x => if decorated type_attr w0 o x then [of_o x; x] else [x]) (mro_of w0 c)) /\
    forall (defines takes_outer : cid -> bool) (alive : oid -> bool),
      (forall x, In x (mro_of w0 c) -> c_kind (the_class w0 x) = Plain) ->
      (forall x, In x (mro_of w0 c) -> if decorated_bound type_attr w0 o x then defines x = true /\ takes_outer x = true else takes_outer x = false) ->
      alive o = true -> forall fuel, 2 * length (mro_of w0 c) < fuel ->
      construct (s_world s) defines takes_outer alive fuel k = Ok (map (fun x => (x, if decorated_bound type_attr w0 o x then Some (Some o) else None)) (filter defines (mro_of w0 c))).
Proof.
  intros W0 U o before O s1 Q n b c T HB after s es X t r J.
  destruct (exec_ok type_attr w0 rank W0 U before _ _ (idle_ok type_attr w0)) as (own1 & _ & _ & S1 & _). destruct (exec_alone type_attr w0 rank W0 U o before _ _ (idle_ok type_attr w0) (idle_alone type_attr w0 rank U o) O) as (_ & A & _). fold s1 in S1, A.
  destruct (u_own_name _ _ _ _ (U o) _ _ _ T) as (L & N & _). subst n.
  assert (ST : settled type_attr w0 o (s_world s1) c s1).
  { split.
    - split; [apply grows_refl|reflexivity|]. intros k D. pose proof (a_entries _ _ _ _ A _ _ _ _ T D) as DB. destruct (ok_cached type_attr w0 rank U _ _ _ _ _ _ _ (proj1 S1) T D) as (k' & Q' & M). injection Q' as <-. split; [apply M|].
      destruct (mro_head w0 W0 c L) as (q & MQ). rewrite MQ in DB. assert (DC' : decorated type_attr w0 o c = true) by (apply decorated_iff; exists b; exact T).
      inversion DB as [|? ? ? DD _ E1 E2|? k' ? l' DD EQ DR E1 E2]; subst; [congruence|]. rewrite D in EQ. injection EQ as <-. exists q, l'. auto.
    - intros m _ t0 r0 f H0 EO. destruct (Q t0 r0 H0 EO).
    - intros t0 r0 H0 EO. destruct (Q t0 r0 H0 EO). }
  assert (H1 : cached_bases type_attr w0 o c (s_world s1)) by (intros base d c' IB NE TB; apply (HB base d c'); assumption).
  destruct (exec_settled type_attr w0 rank W0 U o (s_world s1) own1 b c (proj1 S1) (a_entries _ _ _ _ A) T H1 after s1 own1 S1 ST) as (ST2 & E). destruct (exec_ok type_attr w0 rank W0 U after s1 own1 S1) as (own2 & _ & GR & S2 & E2).
  pose proof (fun v => exec_stable type_attr w0 rank W0 U after s1 own1 o (name_of w0 c) v S1) as STB. rewrite X in *. cbn [fst snd] in *. rewrite Forall_forall in E, E2. destruct (E _ J eq_refl eq_refl) as (k & -> & SH). destruct (E2 _ J b c T) as (k' & QK & M). injection QK as <-.
  exists k. split; [reflexivity|]. split; [apply M|]. split; [apply (shape_mro type_attr w0 rank W0 U o (s_world s1) b c T _ _ SH)|].
  intros defines takes_outer alive KIND INIT AL fuel F.
  destruct (shape_wrapped type_attr w0 rank W0 U o (s_world s1) own1 b c (proj1 S1) (a_entries _ _ _ _ A) T (s_world s) own2 k GR M SH) as (w' & EC & I & Wr).
  { destruct (dict (s_world s1) o (name_of w0 c)) as [v|] eqn:D; [right|left; reflexivity]. destruct (STB v eq_refl) as (_ & _ & P); [intros t0 r0 f H0 EO; destruct (Q t0 r0 H0 EO)|]. specialize (P _ _ J). congruence. }
  pose proof (construct_spec type_attr w0 rank W0 U w' o I defines takes_outer alive c KIND INIT L b k fuel Wr F) as P. unfold ev in P. rewrite AL in P. etransitivity; [|exact P]. destruct (s_world s) as [cl d], w' as [cl' d']. cbn [classes] in EC. subst cl'. reflexivity.
Qed.

(** ** What can go wrong *)
(** Two threads read o.Inner and get different classes (see also C82_threads_refuted). *)
Theorem C121_same_class_refuted : snd (exec inner_attr [Start 0 0 (u "Inner"); Start 1 0 (u "Inner"); Go 0; Go 0; Go 0; Go 1; Go 1; Go 1] (idle inner_w)) =
  [Ended 0 0 (u "Inner") (Ok (VClass 2)); Ended 1 0 (u "Inner") (Ok (VClass 3))].
Proof. vm_compute. reflexivity. Qed.
(** class A; class B(A); class C(A); class D(B, C), all decorated.  While one thread reads o.D, another reads o.A at a bad moment.  Then o.D() does
    not run C.__init__, which it does run if the reads are one after the other; and issubclass(o.B, o.A) is false. *)
Definition diamond_schedule : list action := [Start 0 0 (u "D"); Go 0; Go 0; Start 1 0 (u "A")] ++ repeat (Go 0) 6 ++ repeat (Go 1) 3 ++ repeat (Go 0) 9.
Theorem C121_skipped_init_refuted : exists s, exec diamond_attr diamond_schedule (idle ex_w) = (s, [Ended 1 0 (u "A") (Ok (VClass 7)); Ended 0 0 (u "D") (Ok (VClass 9))]) /\ nobody_reads s 0 /\
  c_mro (the_class (s_world s) 9) = [9; 4; 6; 2; 5; 8; 3; 7; 1; 0] /\
  construct (s_world s) (fun c => 0 <? c) (fun c => 0 <? c) (fun _ => true) 99 9 = Ok [(4, Some (Some 0)); (2, Some (Some 0)); (1, Some (Some 0))] /\
  (exists k j, dict (s_world s) 0 (u "B") = Some (VClass k) /\ dict (s_world s) 0 (u "A") = Some (VClass j) /\ ~ In j (c_mro (the_class (s_world s) k))) /\
  exists w', access diamond_attr 9 ex_w 0 (u "D") = Ok (w', VClass 8) /\ construct w' (fun c => 0 <? c) (fun c => 0 <? c) (fun _ => true) 99 8 = Ok [(4, Some (Some 0)); (2, Some (Some 0)); (3, Some (Some 0)); (1, Some (Some 0))].
Proof.
  eexists. split; [vm_compute; reflexivity|]. split; [intros t r H; destruct t as [|[|t]]; vm_compute in H; discriminate|]. split; [vm_compute; reflexivity|]. split; [vm_compute; reflexivity|]. split.
  - exists 6, 7. split; [vm_compute; reflexivity|]. split; [vm_compute; reflexivity|]. vm_compute. intros [H|[H|[H|[H|[H|[]]]]]]; discriminate.
  - eexists. split; [vm_compute; reflexivity|vm_compute; reflexivity].
Qed.
(** class A; class B(A); class C(A); class E(A); class F(A); class P(B, C); class Q(E, F); class D(P, Q), all decorated.  After a bad interleaving o.D raises
    TypeError, and does so for ever. *)
Definition eight_w : world := World
  [Cls (u "object") [] [0] Plain; Cls (u "A") [0] [1; 0] Plain; Cls (u "B") [1] [2; 1; 0] Plain; Cls (u "C") [1] [3; 1; 0] Plain; Cls (u "E") [1] [4; 1; 0] Plain; Cls (u "F") [1] [5; 1; 0] Plain;
   Cls (u "P") [2; 3] [6; 2; 3; 1; 0] Plain; Cls (u "Q") [4; 5] [7; 4; 5; 1; 0] Plain; Cls (u "D") [6; 7] [8; 6; 2; 3; 7; 4; 5; 1; 0] Plain] (fun _ _ => None).
Definition eight_attr (o : oid) (n : str) : option value :=
  if str_eqb n (u "A") then Some (VWorker true 1) else if str_eqb n (u "B") then Some (VWorker true 2) else if str_eqb n (u "C") then Some (VWorker true 3) else if str_eqb n (u "E") then Some (VWorker true 4)
  else if str_eqb n (u "F") then Some (VWorker true 5) else if str_eqb n (u "P") then Some (VWorker true 6) else if str_eqb n (u "Q") then Some (VWorker true 7) else if str_eqb n (u "D") then Some (VWorker true 8) else None.
Definition eight_schedule : list action :=
  [Start 9 0 (u "A"); Start 8 0 (u "A"); Go 8; Go 8; Go 8] ++ (* the first A is stored *)
  [Start 1 0 (u "F"); Go 1] ++ (* F looks at o.A *)
  [Start 2 0 (u "B"); Go 2; Go 2; Go 2] ++ [Go 9; Go 9; Go 9] ++ (* the second A is stored *)
  [Start 2 0 (u "C"); Go 2; Go 2; Go 2] ++ [Start 2 0 (u "E"); Go 2; Go 2; Go 2] ++ [Go 1; Go 1].
Theorem C121_type_error_refuted : exists s es, exec eight_attr eight_schedule (idle eight_w) = (s, es) /\ nobody_reads s 0 /\ Forall (fun e => let '(Ended _ _ _ r) := e in exists v, r = Ok v) es /\
  snd (exec eight_attr (Start 5 0 (u "D") :: repeat (Go 5) 12 ++ Start 5 0 (u "D") :: repeat (Go 5) 12) s) = [Ended 5 0 (u "D") (Err TypeError); Ended 5 0 (u "D") (Err TypeError)] /\
  exists w' v, access eight_attr 9 eight_w 0 (u "D") = Ok (w', v).
Proof.
  eexists _, _. split; [vm_compute; reflexivity|]. split; [intros t r H; do 10 (destruct t as [|t]; [vm_compute in H; discriminate|]); vm_compute in H; discriminate|].
  split; [repeat constructor; eexists; reflexivity|]. split; [vm_compute; reflexivity|]. eexists _, _. vm_compute. reflexivity.
Qed.

(** ** The programs of these examples meet the hypotheses *)
Lemma diamond_usage : forall o, usage diamond_attr ex_w o (fun c => c).
Proof.
  assert (A : forall o n v, diamond_attr o n = Some v -> (n = u "A" /\ v = VWorker true 1) \/ (n = u "B" /\ v = VWorker true 2) \/ (n = u "C" /\ v = VWorker true 3) \/ (n = u "D" /\ v = VWorker true 4)).
  { intros o n v. unfold diamond_attr. destruct (ex_attr o n) as [v'|] eqn:E; [|discriminate]. apply ex_attr_cases in E. destruct E as [(-> & ->)|[(-> & ->)|[(-> & ->)|(-> & ->)]]]; intros H; injection H as <-; auto 6. }
  intros o. assert (D : forall c, decorated diamond_attr ex_w o c = true -> c = 1 \/ c = 2 \/ c = 3 \/ c = 4).
  { intros c. unfold decorated. destruct (diamond_attr o (name_of ex_w c)) as [v|] eqn:E; [|discriminate]. apply A in E. destruct E as [(_ & ->)|[(_ & ->)|[(_ & ->)|(_ & ->)]]]; intros H; apply Nat.eqb_eq in H; subst; auto. }
  split.
  - intros n b c H. apply A in H. destruct H as [(-> & H)|[(-> & H)|[(-> & H)|(-> & H)]]]; injection H as -> ->; (split; [cbn; lia|]); split; reflexivity.
  - intros c b x DC IB IX DX. apply D in DC. destruct DC as [-> |[-> |[-> | ->]]]; cbn in IB;
      repeat match goal with H : _ \/ _ |- _ => destruct H as [H|H] | H : False |- _ => destruct H end; subst b; try reflexivity; cbn in IX; destruct IX as [<- |[]]; discriminate.
  - intros c b k _ _ _ [H|H]; [discriminate|]. apply A in H. destruct H as [(_ & H)|[(_ & H)|[(_ & H)|(_ & H)]]]; discriminate.
  - intros c b c' d DC IB _ H. apply D in DC. destruct DC as [-> |[-> |[-> | ->]]]; cbn in IB;
      repeat match goal with H : _ \/ _ |- _ => destruct H as [H|H] | H : False |- _ => destruct H end; subst b; vm_compute in H; try discriminate; injection H as <- <-; lia.
Qed.
Lemma eight_class_ok : forall c, c < length (classes eight_w) -> class_ok eight_w c.
Proof.
  intros c L. cbn in L. do 9 (destruct c as [|c]; [split; [repeat constructor|eexists; split; vm_compute; reflexivity]|]). lia.
Qed.
Lemma eight_usage : forall o, usage eight_attr eight_w o (fun c => c).
Proof.
  assert (A : forall o n v, eight_attr o n = Some v -> exists c, 1 <= c < 9 /\ n = name_of eight_w c /\ v = VWorker true c).
  { intros o n v. unfold eight_attr. repeat match goal with |- (if str_eqb n ?m then Some (VWorker true ?c) else _) = _ -> _ => let E := fresh "E" in destruct (str_eqb n m) eqn:E; [apply str_eqb_eq in E; subst n; intros H; injection H as <-; exists c; split; [lia|split; reflexivity]|clear E] end. discriminate. }
  intros o. assert (D : forall c, decorated eight_attr eight_w o c = true -> 1 <= c < 9).
  { intros c. unfold decorated. destruct (eight_attr o (name_of eight_w c)) as [v|] eqn:E; [|discriminate]. apply A in E. destruct E as (c' & L & _ & ->). intros H. apply Nat.eqb_eq in H. lia. }
  split.
  - intros n b c H. apply A in H. destruct H as (c' & L & -> & H). injection H as -> ->. split; [cbn; lia|]. split; reflexivity.
  - intros c b x DC IB IX DX. apply D in DC. destruct b as [|b].
    + cbn in IX. destruct IX as [<- |[]]. vm_compute in DX. discriminate.
    + assert (L : S b < 9). { do 9 (destruct c as [|c]; [cbn in IB; repeat match goal with H : _ \/ _ |- _ => destruct H as [H|H] | H : False |- _ => destruct H end; lia|]). lia. }
      do 8 (destruct b as [|b]; [vm_compute; reflexivity|]). lia.
  - intros c b k _ _ _ [H|H]; [discriminate|]. apply A in H. destruct H as (c' & _ & _ & H). discriminate.
  - intros c b c' d DC IB _ H. apply D in DC. do 9 (destruct c as [|c]; [cbn in IB; repeat match goal with H : _ \/ _ |- _ => destruct H as [H|H] | H : False |- _ => destruct H end; subst b; vm_compute in H; try discriminate; injection H as <- <-; lia|]). lia.
Qed.
(** one thread at a time for object 0, while another thread reads from object 1; then two threads race for o.B, whose base has been read *)
Definition apart : list action := [Start 0 0 (u "B"); Start 1 1 (u "D"); Go 0; Go 1; Go 0; Go 1; Go 0; Go 1; Go 0; Go 0; Go 0; Start 2 0 (u "A")].
Example C121_example_one : one_reader ex_attr 0 apart (idle ex_w) /\ exists k j, snd (exec ex_attr apart (idle ex_w)) = [Ended 0 0 (u "B") (Ok (VClass k)); Ended 2 0 (u "A") (Ok (VClass j))].
Proof.
  split; [|eexists _, _; vm_compute; reflexivity].
  cbn [one_reader apart]. split; [intros t n E _ t' r H; vm_compute in H; discriminate|]. split; [intros t n E; discriminate E|].
  do 9 (split; [intros t n E; discriminate E|]). split; [|exact I]. intros t n E _ t' r H. destruct t' as [|[|t']].
  - vm_compute in H. discriminate.
  - vm_compute in H. injection H as <-. discriminate.
  - vm_compute in H. discriminate.
Qed.
Example C121_example_bases : let s1 := fst (exec ex_attr (Start 0 0 (u "A") :: repeat (Go 0) 3) (idle ex_w)) in nobody_reads s1 0 /\ dict (s_world s1) 0 (u "A") <> None /\
  exists k j, snd (exec ex_attr [Start 0 0 (u "B"); Start 1 0 (u "B"); Go 0; Go 1; Go 0; Go 1; Go 0; Go 1] s1) = [Ended 0 0 (u "B") (Ok (VClass k)); Ended 1 0 (u "B") (Ok (VClass j))] /\ k <> j.
Proof.
  split; [intros t r H; destruct t; vm_compute in H; discriminate|]. split; [vm_compute; discriminate|]. exists 6, 7. split; [vm_compute; reflexivity|discriminate].
Qed.

Print Assumptions C121_every_interleaving.
Print Assumptions C121_wait_free.
Print Assumptions C121_stable_when_quiet.
Print Assumptions C121_one_reader.
Print Assumptions C121_bases_first.
Print Assumptions C121_skipped_init_refuted.
Print Assumptions C121_type_error_refuted.
