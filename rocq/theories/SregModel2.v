(** The times of the Regulators that come with big: floats (big/scheduler.py:144-145, 172-173: time.monotonic()).  A float is an IEEE 754 double as Coq's standard library
    defines it.  Scheduled times may be infinite; now() is finite; NaN is neither (see C124_nan_refuted). *)
From Verif Require Import SregProof2.
From Verif Require Export SregModel.
From Coq Require Export Floats.SpecFloat.

Definition is_time (x : spec_float) : bool := valid_binary 53 1024 x && match x with S754_nan => false | _ => true end.
Definition is_now (x : spec_float) : bool := valid_binary 53 1024 x && match x with S754_zero _ | S754_finite _ _ _ => true | _ => false end.
Definition ftime := { x : spec_float | is_time x = true }.
Definition fnow := { x : spec_float | is_now x = true }.
Lemma fadd_time (t : ftime) (n : fnow) : is_time (SFadd 53 1024 (proj1_sig t) (proj1_sig n)) = true.
Proof.
  destruct t as [x X], n as [y Y]. cbn [proj1_sig]. apply andb_true_iff in X as (X1 & X2), Y as (Y1 & Y2).
  destruct (add_ok x y X1 Y1) as (A & B); [destruct x; congruence|destruct y; auto|]. unfold is_time. rewrite A. now destruct (SFadd 53 1024 x y).
Qed.
Definition floats : clockwork ftime fnow spec_float :=
  mkClockwork _ _ _ (fun a b => SFltb (proj1_sig a) (proj1_sig b)) (fun a b => SFltb (proj1_sig b) (proj1_sig a))
    (fun t n => exist _ (SFadd 53 1024 (proj1_sig t) (proj1_sig n)) (fadd_time t n)) (fun t n => SFsub 53 1024 (proj1_sig t) (proj1_sig n)) (fun d => SFleb d (S754_zero false)).
(** the same with NaN among the times *)
Definition all_floats : clockwork spec_float spec_float spec_float :=
  mkClockwork _ _ _ SFltb (fun a b => SFltb b a) (SFadd 53 1024) (SFsub 53 1024) (fun d => SFleb d (S754_zero false)).
