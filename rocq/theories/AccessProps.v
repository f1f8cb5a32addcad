(** C100 (accessor) and C101 (dispatch). *)
From Verif Require Import PyStrProof AccessSpec.
Import ListNotations.

Section Accessor.
  Context {V A M : Type} (Ob : objects V A M).
  Lemma lookup_store_eq {X} n (v : X) d : lookup n (store n v d) = Some v.
  Proof. induction d as [|[k x] d IH]; simpl. now rewrite str_eqb_refl. destruct (str_eqb k n) eqn:E; simpl; rewrite E; auto. Qed.
  Lemma lookup_store_ne {X} n m (v : X) d : m <> n -> lookup m (store n v d) = lookup m d.
  Proof.
    intros Hne. induction d as [|[k x] d IH]; simpl.
    - destruct (str_eqb n m) eqn:E; auto. apply str_eqb_eq in E. congruence.
    - destruct (str_eqb k n) eqn:E; simpl; [|now rewrite IH].
      apply str_eqb_eq in E. subst k. destruct (str_eqb n m) eqn:E; auto. apply str_eqb_eq in E. congruence.
  Qed.
  Lemma lookup_None {X} n (d : list (name * X)) : lookup n d = None <-> ~ In n (map fst d).
  Proof.
    induction d as [|[k x] d IH]; simpl. split; auto.
    destruct (str_eqb k n) eqn:E; split; intros H; try discriminate.
    - apply str_eqb_eq in E. tauto.
    - intros [-> | H']. now rewrite str_eqb_refl in E. now apply IH in H.
    - apply IH. tauto.
  Qed.
  Lemma str_eqb_ne a b : str_eqb a b = false -> a <> b.
  Proof. intros E ->. now rewrite str_eqb_refl in E. Qed.

  Lemma ordinary_get cls sm fuel fuel' (w : world V M) : ordinary sm cls ->
    self_get Ob cls (S fuel) sm w = self_get Ob cls (S fuel') sm w.
  Proof. intros H. simpl. specialize (H). destruct (lookup sm cls) as [[s| |]|] eqn:E; auto. now destruct (H s). Qed.
  Lemma accessor_get cls attribute sm : unused attribute cls -> forall fuel n (w : world V M), n <> attribute ->
    self_get Ob (accessor attribute sm cls) fuel n w = self_get Ob cls fuel n w.
  Proof.
    intros Hu. induction fuel as [|fuel IH]; intros n w Hn; simpl; auto.
    unfold accessor. rewrite lookup_store_ne by auto. destruct (lookup n cls) as [[s| |]|] eqn:E; auto.
    rewrite IH; auto. intros ->. now apply (Hu n).
  Qed.

  Lemma get_property cls n sm fuel (w : world V M) : lookup n cls = Some (Property sm) ->
    self_get Ob cls (S fuel) n w = bind (self_get Ob cls fuel sm w) (fun i w => o_get Ob i (u "state") w).
  Proof. intros H. simpl. now rewrite H. Qed.

  (** C100: with the class decorated by accessor(attribute, state_manager), every program does what it does on the class without
      it when self.attribute is replaced by self.state_manager.state - reading, assigning and calling. *)
  Theorem C100_accessor cls attribute sm : attribute <> sm -> unused attribute cls -> ordinary sm cls ->
    forall fuel (p : prog V A M) w,
    run Ob (accessor attribute sm cls) (2 + fuel) p w = run Ob cls (2 + fuel) (without_accessor attribute sm p) w.
  Proof.
    intros Hne Hu Ho fuel p. set (F := 2 + fuel).
    assert (Hget : forall w, self_get Ob (accessor attribute sm cls) F attribute w
      = bind (self_get Ob cls F sm w) (fun i w => o_get Ob i (u "state") w)).
    { intros w. unfold F. change (2 + fuel)%nat with (S (S fuel)).
      rewrite (get_property _ _ sm) by apply lookup_store_eq.
      rewrite accessor_get by auto. now rewrite (ordinary_get cls sm fuel (S fuel)). }
    assert (Hset : forall v w, self_set Ob (accessor attribute sm cls) F attribute v w
      = bind (self_get Ob cls F sm w) (fun i w => o_set Ob i (u "state") v w)).
    { intros v w. unfold self_set. unfold accessor at 1. rewrite lookup_store_eq. now rewrite accessor_get by auto. }
    assert (Hcall : forall args w, self_call Ob (accessor attribute sm cls) F attribute args w
      = bind (self_get Ob (accessor attribute sm cls) F attribute w) (fun f w => o_call Ob f args w)).
    { intros args w. unfold self_call. unfold accessor at 1. now rewrite lookup_store_eq. }
    assert (Hget' : forall n w, n <> attribute -> self_get Ob (accessor attribute sm cls) F n w = self_get Ob cls F n w)
      by (intros; apply accessor_get; auto).
    assert (Hset' : forall n v w, n <> attribute -> self_set Ob (accessor attribute sm cls) F n v w = self_set Ob cls F n v w).
    { intros n v w Hn. unfold self_set. unfold accessor at 1. rewrite lookup_store_ne by auto.
      destruct (lookup n cls) as [[s| |]|] eqn:E; auto. rewrite Hget'; auto. intros ->. now apply (Hu n). }
    assert (Hcall' : forall n args w, n <> attribute -> self_call Ob (accessor attribute sm cls) F n args w = self_call Ob cls F n args w).
    { intros n args w Hn. unfold self_call. unfold accessor at 1. rewrite lookup_store_ne by auto.
      destruct (lookup n cls) as [[s|s pre suf f| ]|] eqn:E; try (now rewrite Hget' by auto).
      rewrite !Hget'; auto. intros ->. now apply (Hu n) in E. }
    clearbody F. clear fuel.
    induction p as [r|n k IH|n v k IH|n args k IH|o n k IH|o n v k IH|o args k IH|f k IH]; intros w;
      cbn [run without_accessor]; auto.
    - destruct (str_eqb n attribute) eqn:E.
      + apply str_eqb_eq in E. subst n. rewrite Hget. unfold with_manager. cbn [run].
        destruct (self_get Ob cls F sm w) as [w' [i|e]]; cbn [bind run]; auto.
        destruct (o_get Ob i (u "state") w') as [w2 r]; auto.
      + apply str_eqb_ne in E. rewrite Hget' by auto. cbn [run]. destruct (self_get Ob cls F n w); auto.
    - destruct (str_eqb n attribute) eqn:E.
      + apply str_eqb_eq in E. subst n. rewrite Hset. unfold with_manager. cbn [run].
        destruct (self_get Ob cls F sm w) as [w' [i|e]]; cbn [bind run]; auto.
        destruct (o_set Ob i (u "state") v w') as [w2 r]; auto.
      + apply str_eqb_ne in E. rewrite Hset' by auto. cbn [run]. destruct (self_set Ob cls F n v w); auto.
    - destruct (str_eqb n attribute) eqn:E.
      + apply str_eqb_eq in E. subst n. rewrite Hcall, Hget. unfold with_manager. cbn [run].
        destruct (self_get Ob cls F sm w) as [w' [i|e]]; cbn [bind run]; auto.
        destruct (o_get Ob i (u "state") w') as [w2 [f|e]]; cbn [bind run]; auto.
        destruct (o_call Ob f args w2); auto.
      + apply str_eqb_ne in E. rewrite Hcall' by auto. cbn [run]. destruct (self_call Ob cls F n args w); auto.
    - destruct (o_get Ob o n w); auto.
    - destruct (o_set Ob o n v w); auto.
    - destruct (o_call Ob o args w); auto.
  Qed.

  (** Decorating adds exactly the one attribute. *)
  Theorem C100_only cls attribute sm : forall n, n <> attribute -> lookup n (@accessor V attribute sm cls) = lookup n cls.
  Proof. intros n Hn. now apply lookup_store_ne. Qed.

  (** attribute and state_manager the same name: reading or assigning it never gets anywhere, however deep the stack; the
      attribute of the instance, if there is one, is out of reach.  The same for two accessors of each other's names. *)
  Theorem C100_same_name cls attribute fuel (w : world V M) v :
    self_get Ob (accessor attribute attribute cls) fuel attribute w = (w, Err RecursionError)
    /\ self_set Ob (accessor attribute attribute cls) fuel attribute v w = (w, Err RecursionError).
  Proof.
    assert (H : forall fuel, self_get Ob (accessor attribute attribute cls) fuel attribute w = (w, Err RecursionError)).
    { clear fuel. induction fuel as [|fuel IH]; auto. rewrite (get_property _ _ attribute) by apply lookup_store_eq. now rewrite IH. }
    split; auto. unfold self_set. unfold accessor at 1. rewrite lookup_store_eq. now rewrite H.
  Qed.
  Theorem C100_mutual cls a b fuel (w : world V M) v : a <> b ->
    let cls' := accessor a b (accessor b a cls) in
    self_get Ob cls' fuel a w = (w, Err RecursionError) /\ self_set Ob cls' fuel a v w = (w, Err RecursionError).
  Proof.
    intros Hab cls'.
    assert (La : lookup a cls' = Some (Property b)) by apply lookup_store_eq.
    assert (Lb : lookup b cls' = Some (Property a)).
    { unfold cls', accessor. rewrite lookup_store_ne by congruence. apply lookup_store_eq. }
    assert (H : forall fuel, self_get Ob cls' fuel a w = (w, Err RecursionError) /\ self_get Ob cls' fuel b w = (w, Err RecursionError)).
    { clear fuel. induction fuel as [|fuel [IH1 IH2]]; auto. rewrite (get_property _ a b), (get_property _ b a) by auto. now rewrite IH1, IH2. }
    split. apply H. unfold self_set. rewrite La. now rewrite (proj2 (H fuel)).
  Qed.

  (** C101: in a class with "@dispatch(state_manager, prefix=prefix, suffix=suffix) def event", every program does what it does
      when self.event(..) is replaced by self.state_manager.state.<prefix>event<suffix>(..), the name being that of the function
      decorated; exceptions included, and what the function decorated would have done not at all. *)
  Theorem C101_dispatch cls' sm prefix suffix event : lookup event cls' = Some (dispatch sm prefix suffix event) ->
    forall fuel (p : prog V A M) w, unhidden Ob cls' event fuel p w ->
    run Ob cls' fuel p w = run Ob cls' fuel (without_dispatch event sm prefix suffix p) w.
  Proof.
    intros L fuel p. unfold dispatch in L.
    induction p as [r|n k IH|n v k IH|n args k IH|o n k IH|o n v k IH|o args k IH|f k IH]; intros w Hw;
      cbn [run without_dispatch unhidden] in *; auto.
    - destruct (self_get Ob cls' fuel n w); auto.
    - destruct (self_set Ob cls' fuel n v w); auto.
    - destruct Hw as [Hh Hw]. destruct (str_eqb n event) eqn:E.
      + apply str_eqb_eq in E. subst n. specialize (Hh eq_refl). apply lookup_None in Hh.
        unfold self_call in *. rewrite L, Hh in *. unfold with_manager. cbn [run].
        destruct (self_get Ob cls' fuel sm w) as [w' [i|e]]; cbn [bind run] in *; auto.
        change state_attr with (u "state") in *.
        destruct (o_get Ob i (u "state") w') as [w2 [st|e]]; cbn [bind run] in *; auto.
        destruct (o_get Ob st (prefix ++ event ++ suffix) w2) as [w3 [m|e]]; cbn [bind run] in *; auto.
        destruct (o_call Ob m args w3); auto.
      + cbn [run]. destruct (self_call Ob cls' fuel n args w); auto.
    - destruct (o_get Ob o n w); auto.
    - destruct (o_set Ob o n v w); auto.
    - destruct (o_call Ob o args w); auto.
  Qed.
  Theorem C101_only cls n c : forall m, m <> n -> lookup m (@def_method V n c cls) = lookup m cls.
  Proof. intros m Hm. now apply lookup_store_ne. Qed.
  (** The condition is needed: an attribute of the instance of that name is called instead. *)
  Theorem C101_hidden cls sm prefix suffix event fuel args (w : world V M) f :
    lookup event (fst w) = Some f ->
    self_call Ob (def_method event (dispatch sm prefix suffix event) cls) (S fuel) event args w = o_call Ob f args w.
  Proof. intros H. unfold self_call. unfold def_method at 1. rewrite lookup_store_eq, H. simpl. unfold def_method. rewrite lookup_store_eq, H. reflexivity. Qed.
End Accessor.

(** A concrete machine: values are numbers; 7 is the state manager, whose state is kept in the rest of the world. *)
Definition light : objects N N (N * list N) :=
  Objects
    (fun o n w => if (o =? 7)%N then (if str_eqb n (u "state") then (w, Ok (fst (snd w))) else (w, Err AttributeError))
                  else if str_eqb n (u "on_press") then (w, Ok (100 + o)%N) else (w, Err AttributeError))
    (fun o n v w => if (o =? 7)%N && str_eqb n (u "state") then ((fst w, (v, snd (snd w))), Ok tt) else (w, Err AttributeError))
    (fun f a w => ((fst w, (a, f :: snd (snd w))), Ok f)).
Definition lamp : class N := accessor (u "state") (u "state_manager") (def_method (u "press") (dispatch (u "state_manager") (u "on_") [] (u "press")) []).
Definition w0 : world N (N * list N) := ([(u "state_manager", 7%N)], (3%N, [])).
Definition session : prog N N (N * list N) :=
  Get (u "state") (fun r => Set_ (u "state") 5%N (fun _ => Call (u "press") 9%N (fun r2 => Get (u "state") (fun r3 => Done r3)))).
Example C100_witness : run light lamp 2 session w0 = (([(u "state_manager", 7%N)], (9%N, [105%N])), Ok 9%N).
Proof. reflexivity. Qed.
Example C100_hypotheses :
  u "state" <> u "state_manager"
  /\ unused (u "state") (def_method (u "press") (@dispatch N (u "state_manager") (u "on_") [] (u "press")) [])
  /\ ordinary (u "state_manager") (def_method (u "press") (@dispatch N (u "state_manager") (u "on_") [] (u "press")) []).
Proof.
  repeat split; try discriminate; repeat intro; cbn [def_method dispatch store lookup] in *;
    match goal with H : context [str_eqb ?a ?b] |- _ => destruct (str_eqb a b) eqn:? end; try discriminate.
Qed.
Example C101_hypotheses : lookup (u "press") lamp = Some (dispatch (u "state_manager") (u "on_") [] (u "press")) /\ unhidden light lamp (u "press") 2 session w0.
Proof. split. reflexivity. cbn. repeat split. intros _ [H|[]]. discriminate. Qed.

Print Assumptions C100_accessor. Print Assumptions C100_only. Print Assumptions C100_same_name. Print Assumptions C100_mutual.
Print Assumptions C101_dispatch. Print Assumptions C101_only. Print Assumptions C101_hidden.
