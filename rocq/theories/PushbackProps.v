(** The property C50 (PushbackIterator). *)
From Verif Require Import PushbackModel PushbackSpec.

Section Props.
  Context {V I : Type} (it : iterator V I) (inv : I -> Prop).
  Definition source (i : option I) : sequence V := match i with None => empty | Some i => values it i end.
  Fixpoint pushed (l : list V) (s : sequence V) : sequence V := match l with [] => s | v :: l => put v (pushed l s) end.
  Definition rest (p : pushback V I) : sequence V := pushed (pb_stack p) (source (pb_i p)).
  Definition sane (p : pushback V I) : Prop := match pb_i p with Some i => inv i | None => True end.
  Definition same (a b : sequence V) : Prop := forall n, a n = b n.
  Lemma same_run ops : forall a b, same a b -> spec_run a ops = spec_run b ops.
  Proof.
    induction ops as [|o ops IH]; intros a b E; auto. cbn [spec_run]. destruct o; cbn [spec_step]; rewrite <- ?(E 0); try (destruct (a 0)); f_equal; apply IH; intros n; try apply E; destruct n as [|n]; cbn [put]; try reflexivity; apply E.
  Qed.
  Lemma values_S i v i' n : it_next it i = (Value v, i') -> values it i (S n) = values it i' n.
  Proof. intros E. cbn. now rewrite E. Qed.
  Lemma values_stop i r i' n : it_next it i = (r, i') -> (forall v, r <> Value v) -> values it i n = None.
  Proof. intros E N. destruct n; cbn; rewrite E; destruct r; auto; exfalso; eapply N; eauto. Qed.
  Lemma values_end i n : values it i 0 = None -> values it i n = None.
  Proof. cbn. destruct (it_next it i) as [[v| |e] i'] eqn:E; intros H; [discriminate|eapply values_stop; eauto; discriminate..]. Qed.
  Lemma step_ok (L : lawful it inv) p o : sane p -> let (x, p') := pb_step it p o in let (y, s) := spec_step (rest p) o in x = y /\ sane p' /\ same (rest p') s.
  Proof.
    destruct L as [L1 L2]. intros Sp. destruct p as [i stack]. destruct stack as [|v stack].
    - unfold sane in Sp. cbn [pb_i pb_stack] in *. unfold rest. cbn [pb_stack pb_i pushed].
      destruct o as [|d|v|].
      all: cbn [pb_step spec_step]; try (split; [reflexivity|split; [exact Sp|intros n; reflexivity]]).
      all: unfold pb_next, pb_next_default, pb_bool; cbn [pb_stack pb_i]; destruct i as [i|]; cbn [test_i source]; try (split; [reflexivity|split; [exact Coq.Init.Logic.I|intros n; reflexivity]]).
      all: destruct (it_bool it i) as [b i1] eqn:Eb; destruct (L2 i b i1 Sp Eb) as (S1 & V1 & F1); rewrite <- ?(V1 0).
      all: destruct b.
      2,4,6: specialize (F1 eq_refl); rewrite (V1 0), F1; split; [reflexivity|]; split; [exact S1|exact V1].
      all: destruct (it_next it i1) as [r i2] eqn:En; destruct (L1 i1 r i2 S1 En) as [S2 R2]; destruct r as [v| |e]; [|..|exfalso; eapply R2; eauto].
      all: try (rewrite (values_stop i1 _ i2 0 En) by discriminate; split; [reflexivity|]; split; [exact Coq.Init.Logic.I|]; intros n; cbn; rewrite <- V1; symmetry; eapply values_stop; eauto; discriminate).
      all: assert (X0 : values it i1 0 = Some v) by (cbn; now rewrite En); rewrite X0; split; [reflexivity|]; split; [exact S2|]; intros n.
      1,2: unfold tail; cbn [pb_i pb_stack rest pushed source]; rewrite <- V1; symmetry; eapply values_S; exact En.
      unfold rest, pb_push; cbn [pb_i pb_stack pushed source]. rewrite <- V1. destruct n as [|n]; [cbn [put]; auto|]. cbn [put]. symmetry. eapply values_S; exact En.
    - destruct o; cbn [pb_step spec_step]; unfold pb_next, pb_next_default, pb_bool; cbn [pb_stack pb_i]; unfold rest; cbn [pb_stack pb_i pushed put]; (split; [reflexivity|split; [exact Sp|intros n; reflexivity]]).
  Qed.
  Lemma run_ok (L : lawful it inv) ops : forall p, sane p -> pb_run it p ops = spec_run (rest p) ops.
  Proof.
    induction ops as [|o ops IH]; intros p S; auto. cbn [pb_run spec_run]. pose proof (step_ok L p o S) as H. destruct (pb_step it p o) as [x p']. destruct (spec_step (rest p) o) as [y s]. destruct H as (-> & S' & E).
    f_equal. rewrite (IH p' S'). now apply same_run.
  Qed.
End Props.

(** Whatever is called, in whatever order: the program sees what it would see of a sequence to
    which push adds in front, from which next takes the first, and which bool only looks at. *)
Theorem C50_refinement : forall (V I : Type) (it : iterator V I) (inv : I -> Prop), lawful it inv ->
  forall (i : I), inv i -> forall ops, pb_run it (pb_init (Some i)) ops = spec_run (values it i) ops.
Proof. intros V I it inv L i Hi ops. rewrite (run_ok it inv L); [reflexivity|exact Hi]. Qed.
Print Assumptions C50_refinement.
(** PushbackIterator(None) starts exhausted. *)
Theorem C50_none : forall (V I : Type) (it : iterator V I) (inv : I -> Prop), lawful it inv ->
  forall ops, pb_run it (pb_init None) ops = spec_run empty ops.
Proof. intros V I it inv L ops. rewrite (run_ok it inv L); [reflexivity|exact Coq.Init.Logic.I]. Qed.
Print Assumptions C50_none.

(** What the specification means: pushed values come last-in-first-out, then the others. *)
Fixpoint next_n {V} (n : nat) : list (pb_op V) := match n with O => [] | S n => Next :: next_n n end.
Theorem C50_lifo : forall (V I : Type) (it : iterator V I) (inv : I -> Prop), lawful it inv -> forall (i : I), inv i -> forall l : list V,
  pb_run it (pb_init (Some i)) (map Push l ++ next_n (length l) ++ [Next]) =
  map (fun _ => Pushed) l ++ map Got (rev l) ++ [match values it i 0 with Some v => Got v | None => Exhausted end].
Proof.
  intros V I it inv L i Hi l. rewrite (C50_refinement V I it inv L i Hi). set (s := values it i).
  assert (A : forall (l : list V) s ops, spec_run s (map Push l ++ ops) = map (fun _ => Pushed) l ++ spec_run (fold_left (fun s v => put v s) l s) ops).
  { clear. induction l as [|v l IH]; intros s ops; auto. cbn [map app spec_run spec_step fold_left]. f_equal. apply IH. }
  rewrite A. f_equal. rewrite <- fold_left_rev_right. rewrite <- (rev_length l). generalize (rev l). clear. intros l.
  induction l as [|v l IH]; cbn [length next_n app fold_right spec_run spec_step map put].
  - destruct (s 0); reflexivity.
  - f_equal. exact IH.
Qed.
Print Assumptions C50_lifo.

(** A PushbackIterator of a lawful iterator is lawful, so they may be nested. *)
Theorem C50_nested : forall (V I : Type) (it : iterator V I) (inv : I -> Prop), lawful it inv -> lawful (pb_iterator it) (sane inv).
Proof.
  intros V I it inv L. assert (N : forall p, sane inv p -> exists r p', it_next (pb_iterator it) p = (r, p') /\ sane inv p' /\ (forall e, r <> Raise e) /\
     match r with Value v => rest it p 0 = Some v /\ same (rest it p') (tail (rest it p)) | _ => rest it p 0 = None end).
  { intros p S. pose proof (step_ok it inv L p Next S) as H. cbn [pb_step] in H. cbn [pb_iterator it_next]. destruct (pb_next it p) as [r p']. exists r, p'. split; auto. cbn [spec_step] in H.
    destruct (rest it p 0) eqn:E; destruct H as (X & S' & E'); destruct r; try discriminate; (split; [exact S'|]); (split; [discriminate|]); auto. injection X as ->. auto. }
  assert (Vs : forall n p, sane inv p -> values (pb_iterator it) p n = rest it p n).
  { induction n as [|n IH]; intros p Sp; destruct (N p Sp) as (r & p' & E & S' & R & M).
    - cbn [values]. rewrite E. destruct r; [symmetry; apply M|symmetry; exact M|]. exfalso. eapply R; eauto.
    - cbn [values]. rewrite E. destruct r.
      + rewrite (IH p' S'). apply M.
      + (* the end of the rest *) assert (Z : forall p, rest it p 0 = None -> rest it p (S n) = None).
        { clear. intros [i st]. unfold rest. cbn. destruct st; [|discriminate]. cbn. destruct i; auto. intros H. apply values_end. exact H. }
        symmetry. now apply Z.
      + exfalso. eapply R; eauto. }
  split.
  - intros p r p' S E. destruct (N p S) as (r1 & p1 & E1 & S1 & R1 & _). rewrite E1 in E. injection E as <- <-. auto.
  - intros p b p' S E. pose proof (step_ok it inv L p Bool S) as H. cbn [pb_step spec_step] in H. cbn [pb_iterator it_bool] in E. destruct (pb_bool it p) as [[b1|e] p1]; [|destruct H as (X & _); discriminate]; destruct H as (X & S' & E').
    injection E as -> ->. split; auto. split; [intros n; rewrite !Vs by auto; apply E'|]. intros ->. rewrite Vs by auto. injection X as X. destruct (rest it p 0); [discriminate|auto].
Qed.
Print Assumptions C50_nested.

(** Exceptions other than StopIteration: bool() and next(default) pass them on and keep the
    iterator; __next__ swallows them, and the iterator is lost. *)
Theorem C50_exceptions : forall (V I : Type) (it : iterator V I) (i i1 i2 : I) (e : exn) (d : V), it_bool it i = (true, i1) -> it_next it i1 = (Raise e, i2) ->
  pb_bool it (pb_init (Some i)) = (Err e, pb_init (Some i2)) /\
  pb_next_default it d (pb_init (Some i)) = (Raise e, pb_init (Some i2)) /\
  pb_next it (pb_init (Some i)) = (Stop, pb_init None).
Proof. intros V I it i i1 i2 e d B N. unfold pb_bool, pb_next_default, pb_next, pb_init. cbn [pb_i pb_stack test_i]. rewrite B, N. auto. Qed.
Print Assumptions C50_exceptions.
(** an iterator that raises once and then goes on: next() ends it *)
Definition raises_once : iterator nat nat := Iterator (fun n => (if n =? 1 then Raise KeyError else Value n, S n)) (fun n => (true, n)).
Theorem C50_exceptions_refuted : pb_run raises_once (pb_init (Some 0)) [Next; Next; Next] = [Got 0; Exhausted; Exhausted] /\
  pb_run raises_once (pb_init (Some 0)) [Next; Bool; Next] = [Got 0; Raised KeyError; Got 2].
Proof. split; reflexivity. Qed.
Print Assumptions C50_exceptions_refuted.

Example C50_lawful_list : lawful (@list_iterator nat) (fun _ => True).
Proof. split; [intros [|v l] r i' _ E; injection E as <- <-; split; auto; discriminate|intros i b i' _ E; injection E as <- <-; repeat split; auto; discriminate]. Qed.
Example C50_lawful_count : lawful count (fun _ => True).
Proof. split; [intros i r i' _ E; injection E as <- <-; split; auto; discriminate|intros i b i' _ E; injection E as <- <-; repeat split; auto; discriminate]. Qed.
Example C50_witness : pb_run list_iterator (pb_init (Some [1; 2; 3])) [Next; Bool; Push 7; Push 8; Bool; Next; Next; NextDefault 9; Next; NextDefault 9; Bool; Push 4; Next; Next] =
  [Got 1; Truth true; Pushed; Pushed; Truth true; Got 8; Got 7; Got 2; Got 3; Got 9; Truth false; Pushed; Got 4; Exhausted].
Proof. reflexivity. Qed.
