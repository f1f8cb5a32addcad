(** Properties C85 and C86: get_int_or_float, get_int, get_float, try_int, try_float. *)
From Verif Require Import NumModel NumSpec.
From Coq Require Import QArith Qpower Lia.

Lemma value_pos m e : (0 <= e)%Z -> (inject_Z m * (2 # 1) ^ e == inject_Z (m * 2 ^ e))%Q.
Proof. intros H. rewrite inject_Z_mult, (Zpower_Qpower 2 e H). reflexivity. Qed.
Lemma value_neg m e z : (e < 0)%Z -> (inject_Z m * (2 # 1) ^ e == inject_Z z)%Q <-> (z * 2 ^ (- e) = m)%Z.
Proof.
  intros H. assert (P : (inject_Z (2 ^ (- e)) == (2 # 1) ^ (- e))%Q) by (apply (Zpower_Qpower 2 (- e)); lia).
  assert (NZ : ~ (inject_Z (2 ^ (- e)) == 0)%Q).
  { intros Q. change 0%Q with (inject_Z 0) in Q. assert (Q' : (2 ^ (- e))%Z = 0%Z) by (apply inject_Z_injective; exact Q). assert (0 < 2 ^ (- e))%Z by (apply Z.pow_pos_nonneg; lia). lia. }
  assert (E : ((2 # 1) ^ e == / inject_Z (2 ^ (- e)))%Q).
  { replace e with (- (- e))%Z at 1 by lia. rewrite Qpower_opp, <- P. reflexivity. }
  rewrite E. split.
  - intros Q. apply inject_Z_injective. rewrite inject_Z_mult, <- Q. field. exact NZ.
  - intros <-. rewrite inject_Z_mult. field. exact NZ.
Qed.
Lemma goif_fin m e : exists r, goif_float (Fin m e) = Ok r /\ same_number (number r) (value (Fin m e)) /\ (is_int r <-> exists q, value (Fin m e) = Some q /\ whole q).
Proof.
  unfold goif_float, int_of_flt, int_eq_flt. destruct (Z.leb_spec 0 e) as [H|H].
  - rewrite Z.eqb_refl. eexists. split; [reflexivity|]. cbn [number value same_number is_int]. split; [symmetry; apply value_pos, H|].
    split; [intros _|auto]. eexists. split; [reflexivity|]. exists (m * 2 ^ e)%Z. apply value_pos, H.
  - destruct (Z.eqb_spec (Z.quot m (2 ^ - e) * 2 ^ - e) m) as [E|E]; eexists; (split; [reflexivity|]); cbn [number value same_number is_int].
    + split; [symmetry; apply value_neg; assumption|]. split; [intros _|auto]. eexists. split; [reflexivity|]. exists (Z.quot m (2 ^ - e)). apply value_neg; assumption.
    + split; [reflexivity|]. split; [intros []|]. intros (q & Q & z & W). injection Q as <-. apply value_neg in W; [|exact H]. apply E. rewrite <- W at 1. assert (0 < 2 ^ (- e))%Z by (apply Z.pow_pos_nonneg; lia). rewrite Z.quot_mul by lia. exact W.
Qed.

(** ** C85 *)
(** An int (bool too) is returned unchanged; a finite float gives the same number, an int exactly if it is whole; anything else gives int(o) if that works,
    else the number float(o) in the same way if that works and is finite, else the default (o itself if there is none). *)
Theorem C85_get_int_or_float_partial (float_of_int : Z -> result flt) (o : obj) (default : option obj) :
  match o with
  | OInt _ _ => get_int_or_float float_of_int o default = Ok o
  | OFloat (Fin m e) =>
      exists r, get_int_or_float float_of_int o default = Ok r /\ same_number (number r) (number o) /\ (is_int r <-> exists q, number o = Some q /\ whole q)
  | OFloat _ => True
  | OOther _ (Ok z) _ => get_int_or_float float_of_int o default = Ok (OInt z false)
  | OOther _ (Err e) (Ok (Fin m e')) => e = TypeError \/ e = ValueError ->
      exists r, get_int_or_float float_of_int o default = Ok r /\ same_number (number r) (value (Fin m e')) /\ (is_int r <-> exists q, value (Fin m e') = Some q /\ whole q)
  | OOther _ (Err e) (Err e') => e = TypeError \/ e = ValueError -> e' = TypeError \/ e' = ValueError ->
      get_int_or_float float_of_int o default = Ok (match default with Some d => d | None => o end)
  | OOther _ _ _ => True
  end.
Proof.
  destruct o as [z b|[m e| |]|id [z|e] [[m e'| |]|e']]; try exact Logic.I; try reflexivity.
  - apply goif_fin.
  - intros H. destruct (goif_fin m e') as (r & E & P). exists r. split; [|exact P]. cbn [get_int_or_float py_int py_float rbind]. rewrite E. destruct H as [-> | ->]; reflexivity.
  - intros H H'. cbn [get_int_or_float py_int py_float rbind]. destruct H as [-> | ->], H' as [-> | ->]; reflexivity.
Qed.
(** Converting twice changes nothing. (A float passed as default is returned as it is, so "converting twice changes nothing" needs that the default was not used.) *)
Theorem C85_idempotent_partial (float_of_int : Z -> result flt) (o r : obj) (d' : option obj) :
  get_int_or_float float_of_int o None = Ok r -> number r <> None -> get_int_or_float float_of_int r d' = Ok r.
Proof.
  assert (G : forall f, goif_float f = Ok r -> get_int_or_float float_of_int r d' = Ok r).
  { intros f H. unfold goif_float in H. destruct (int_of_flt f) as [z|] eqn:E; [|discriminate]. destruct (int_eq_flt z f) eqn:Q; injection H as <-; [reflexivity|].
    cbn [get_int_or_float]. unfold goif_float. rewrite E, Q. reflexivity. }
  intros H N. destruct o as [z b|f|id i f]; cbn [get_int_or_float] in H.
  - injection H as <-. reflexivity.
  - apply (G f H).
  - cbn [py_int py_float] in H. destruct i as [z|e]; [injection H as <-; reflexivity|]. destruct (caught e); [|discriminate].
    destruct (rbind f goif_float) as [r'|e'] eqn:E.
    + injection H as ->. destruct f as [f|]; [|discriminate]. apply (G f E).
    + destruct (caught e'); [|discriminate]. injection H as <-. destruct N. reflexivity.
Qed.
(** Floats that are not finite: the documented "otherwise return o" does not happen; get_int_or_float(inf) raises OverflowError, get_int_or_float(nan)
    ValueError; the string "inf" raises OverflowError too, and the string "nan" is not converted although float("nan") works. *)
Theorem C85_not_finite_refuted float_of_int : forall s default id,
  get_int_or_float float_of_int (OFloat (Inf s)) default = Err OverflowError /\
  get_int_or_float float_of_int (OFloat NaN) default = Err ValueError /\
  get_int_or_float float_of_int (OOther id (Err ValueError) (Ok (Inf s))) default = Err OverflowError /\
  get_int_or_float float_of_int (OOther id (Err ValueError) (Ok NaN)) None = Ok (OOther id (Err ValueError) (Ok NaN)).
Proof. intros. repeat split; reflexivity. Qed.
Example C85_example float_of_int : get_int_or_float float_of_int (OFloat (Fin 5 1)) None = Ok (OInt 10 false) /\ get_int_or_float float_of_int (OFloat (Fin (-5) (-1))) None = Ok (OFloat (Fin (-5) (-1))) /\
  get_int_or_float float_of_int (OOther 7 (Err ValueError) (Ok (Fin 8 (-2)))) None = Ok (OInt 2 false) /\ get_int_or_float float_of_int (OInt 1 true) None = Ok (OInt 1 true).
Proof. repeat split; reflexivity. Qed.

(** ** C86 *)
(** try_int and get_int (try_float and get_float) agree about which objects can be converted: the first says True exactly if int(o) gives a number, which the second then
    returns; the first says False exactly if it raises TypeError or ValueError, and then the second returns the default. *)
Theorem C86_try_and_get_partial (float_of_int : Z -> result flt) (o : obj) (default : option obj) :
  match py_int o with
  | Ok z => try_int o = Ok true /\ get_int o default = Ok (OInt z false)
  | Err e => if (match e with TypeError | ValueError => true | _ => false end) then try_int o = Ok false /\ get_int o default = Ok (match default with Some d => d | None => o end)
             else try_int o = Err e /\ get_int o default = Err e
  end /\
  match py_float float_of_int o with
  | Ok f => try_float float_of_int o = Ok true /\ get_float float_of_int o default = Ok (OFloat f)
  | Err e => if (match e with TypeError | ValueError => true | _ => false end)
             then try_float float_of_int o = Ok false /\ get_float float_of_int o default = Ok (match default with Some d => d | None => o end)
             else try_float float_of_int o = Err e /\ get_float float_of_int o default = Err e
  end.
Proof.
  unfold try_int, get_int, try_float, get_float. split.
  - destruct (py_int o) as [z|e]; [auto|]. destruct e; cbn [caught]; auto.
  - destruct (py_float float_of_int o) as [z|e]; [auto|]. destruct e; cbn [caught]; auto.
Qed.
(** OverflowError is not caught: try_int(float("inf")) and try_float(10 ** 400) raise it instead of returning False, and get_int and get_float instead of returning the default *)
Theorem C86_overflow_refuted float_of_int : float_of_int (10 ^ 400)%Z = Err OverflowError -> forall d,
  try_int (OFloat (Inf false)) = Err OverflowError /\ get_int (OFloat (Inf false)) d = Err OverflowError /\
  try_float float_of_int (OInt (10 ^ 400) false) = Err OverflowError /\ get_float float_of_int (OInt (10 ^ 400) false) d = Err OverflowError.
Proof. intros H d. unfold try_float, get_float, py_float. rewrite H. repeat split; reflexivity. Qed.
Example C86_example : try_int (OFloat (Fin 7 (-1))) = Ok true /\ get_int (OFloat (Fin (-7) (-1))) None = Ok (OInt (-3) false) /\ try_int (OFloat NaN) = Ok false /\ get_int (OFloat NaN) (Some (OInt 0 false)) = Ok (OInt 0 false).
Proof. repeat split; reflexivity. Qed.

Print Assumptions C85_get_int_or_float_partial.
Print Assumptions C85_idempotent_partial.
Print Assumptions C86_try_and_get_partial.

(** C85 exactly, for every object: also what happens for infinities, NaN and other exceptions. *)
Definition conversion_failed (e : exn) : Prop := e = TypeError \/ e = ValueError.
Theorem C85_get_int_or_float_exact (float_of_int : Z -> result flt) (o : obj) (default : option obj) :
  let res := get_int_or_float float_of_int o default in
  let gives (f : flt) (not_a_number : result obj) :=
    match f with
    | Fin _ _ => exists r, res = Ok r /\ same_number (number r) (value f) /\ (is_int r <-> exists q, value f = Some q /\ whole q)
    | Inf _ => res = Err OverflowError
    | NaN => res = not_a_number
    end in
  let default_given := Ok (match default with Some d => d | None => o end) in
  match o with
  | OInt _ _ => res = Ok o
  | OFloat f => gives f (Err ValueError)
  | OOther _ (Ok z) _ => res = Ok (OInt z false)
  | OOther _ (Err e) float_o =>
      (~ conversion_failed e -> res = Err e) /\
      (conversion_failed e ->
        match float_o with
        | Ok f => gives f default_given
        | Err e' => (~ conversion_failed e' -> res = Err e') /\ (conversion_failed e' -> res = default_given)
        end)
  end.
Proof.
  assert (C : forall e, caught e = true <-> conversion_failed e) by (intros e; unfold conversion_failed; destruct e; cbn; split; try intros [?|?]; try congruence; auto).
  cbv zeta. destruct o as [z b|[m e| |]|id [z|e] f]; try reflexivity.
  - apply goif_fin.
  - cbn [get_int_or_float py_int py_float]. destruct (caught e) eqn:K.
    + apply C in K. split; [contradiction|]. intros _. destruct f as [[m e'| |]|e']; cbn [rbind].
      * destruct (goif_fin m e') as (r & E & P). rewrite E. exists r. split; [reflexivity|exact P].
      * reflexivity.
      * reflexivity.
      * destruct (caught e') eqn:K'; [apply C in K'; split; [contradiction|reflexivity]|]. split; [reflexivity|]. intros H. apply C in H. congruence.
    + split; [reflexivity|]. intros H. apply C in H. congruence.
Qed.
Print Assumptions C85_get_int_or_float_exact.
Example C85_exact_nonvacuous float_of_int : ~ conversion_failed OverflowError /\ conversion_failed ValueError /\
  get_int_or_float float_of_int (OOther 1 (Err OverflowError) (Ok NaN)) None = Err OverflowError /\
  get_int_or_float float_of_int (OOther 1 (Err ValueError) (Ok NaN)) (Some (OInt 3 false)) = Ok (OInt 3 false).
Proof. repeat split; try reflexivity; [intros [?|?]; discriminate|right; reflexivity]. Qed.
