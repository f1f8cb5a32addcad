(** The properties C53 and C54 (translate_filename_to_exfat and _to_unix). *)
From Verif Require Import PyBaseProof PyStrProof FilenameModel FilenameSpec.
From Coq Require Import Ascii.

Definition R (x : str) : str := replace (u ":") (u ".") (replace (u ": ") (u " - ") x).
Lemma R_other c x : c <> 58 -> R (c :: x) = c :: R x.
Proof.
  intros N. unfold R, replace. assert (X : 58 =? c = false) by (apply N.eqb_neq; congruence).
  assert (E : forall y, starts_with (u ": ") (c :: y) = false) by (intros y; change (starts_with (u ": ") (c :: y)) with ((58 =? c) && starts_with (u " ") y); now rewrite X).
  assert (E' : forall y, starts_with (u ":") (c :: y) = false) by (intros y; change (starts_with (u ":") (c :: y)) with ((58 =? c) && starts_with [] y); now rewrite X).
  cbn [replace_from]. rewrite E. cbn [replace_from]. rewrite E'. reflexivity.
Qed.
Definition dash (next : option chr) : str := match next with Some d => if d =? 32 then u " -" else u "." | None => u "." end.
Lemma R_colon (x : str) : R (58 :: x) = dash (hd_error x) ++ R x.
Proof.
  destruct x as [|d x]; [reflexivity|]. cbn [hd_error dash]. destruct (d =? 32) eqn:D.
  - apply N.eqb_eq in D. subst d. transitivity (u " - " ++ R x); [|rewrite R_other by discriminate; reflexivity]. unfold R, replace. cbn [replace_from]. change (starts_with (u ": ") (58 :: 32 :: x)) with true. cbn [length u Nat.sub]. reflexivity.
  - assert (E : starts_with (u ": ") (58 :: d :: x) = false) by (change (starts_with (u ": ") (58 :: d :: x)) with ((32 =? d) && true); now rewrite N.eqb_sym, D).
    unfold R, replace. assert (P : replace_from (u ": ") (u " - ") 0 (58 :: d :: x) = 58 :: replace_from (u ": ") (u " - ") 0 (d :: x)) by (cbn [replace_from] in *; rewrite E; reflexivity).
    etransitivity; [exact (f_equal (replace_from (u ":") (u ".") 0) P)|]. reflexivity.
Qed.
Lemma table_other x : x <> 58 -> Forall (fun d => d <> 58) (exfat_table x).
Proof.
  intros N. unfold exfat_table. destruct (x =? 0) eqn:E0; [repeat constructor; discriminate|]. destruct (x <? 32) eqn:E1.
  - assert (H : forall n, n < 16 -> hex_digit n <> 58) by (intros n Hn; unfold hex_digit; destruct (n <? 10) eqn:X; lia).
    constructor; [discriminate|]. constructor; [apply H; apply N.ltb_lt in E1; apply N.div_lt_upper_bound; lia|]. constructor; [apply H; apply N.mod_lt; lia|constructor].
  - repeat match goal with |- context [if ?b then _ else _] => destruct b end; repeat constructor; auto; discriminate.
Qed.
Lemma R_many a x : Forall (fun d => d <> 58) a -> R (a ++ x) = a ++ R x.
Proof. induction 1; auto. cbn [app]. now rewrite R_other, IHForall. Qed.
Lemma head_space x t : dash (hd_error (translate exfat_table (x :: t))) = dash (Some x).
Proof.
  unfold translate. cbn [map concat]. destruct (N.eq_dec x 32) as [->|N]; [reflexivity|].
  assert (A : exists d r, exfat_table x = d :: r /\ d <> 32).
  { unfold exfat_table. repeat match goal with |- context [if ?b then _ else _] => destruct b end; eexists _, _; (split; [reflexivity|]); auto; discriminate. }
  destruct A as (d & r & -> & Nd). cbn [app hd_error dash]. apply N.eqb_neq in N, Nd. now rewrite N, Nd.
Qed.
Lemma spelling_other x next : x <> 58 -> exfat_spelling x next = exfat_table x.
Proof.
  intros N. unfold exfat_spelling, exfat_table. apply N.eqb_neq in N. rewrite N. change (existsb (N.eqb x) (u "/\")) with ((x =? 47) || ((x =? 92) || false)). change (c1 "*") with 42. change (c1 "?") with 63. change (c1 """") with 34. change (c1 "<") with 60. change (c1 ">") with 62. change (c1 "|") with 124.
  rewrite !orb_false_r.
  destruct (N.lt_ge_cases x 32) as [L|L].
  - assert (A : forall z, z < 32 -> (if (z =? 47) || (z =? 92) then u "-" else if (z =? 0) || (z =? 42) then u "@" else if z =? 63 then u "." else if z =? 34 then u "'" else if z =? 60 then u "{" else if z =? 62 then u "}" else if z =? 124 then u "!" else if control z then u "?" ++ nth (N.to_nat (z / 16)) [u "0"; u "1"] [] ++ [nth (N.to_nat (z mod 16)) (u "0123456789abcdef") 0] else [z]) =
      (if z =? 0 then u "@" else if z <? 32 then [63; hex_digit (z / 16); hex_digit (z mod 16)] else if z =? 47 then u "-" else if z =? 92 then u "-" else if z =? 42 then u "@" else if z =? 63 then u "." else if z =? 34 then u "'" else if z =? 60 then u "{" else if z =? 62 then u "}" else if z =? 124 then u "!" else [z])).
    { clear. intros z Hz. assert (B : In z (map N.of_nat (seq 0 32))) by (apply in_map_iff; exists (N.to_nat z); split; [lia|]; apply in_seq; lia). cbn in B. repeat destruct B as [<-|B]; try reflexivity. destruct B. }
    exact (A x L).
  - assert (x =? 0 = false) as -> by lia. assert (x <? 32 = false) as -> by lia. unfold control. assert (x <? 32 = false) as -> by lia. rewrite andb_false_r. cbn [orb].
    destruct (x =? 47); destruct (x =? 92); reflexivity.
Qed.
(** The result, character by character. *)
Theorem C53_exact : forall s, translate_filename_to_exfat s = match s with [] => Err ValueError | _ => Ok (exfat_spelled s) end.
Proof.
  intros s. destruct s as [|c s]; auto. unfold translate_filename_to_exfat. f_equal. generalize (c :: s). clear. intros s. fold (R (translate exfat_table s)).
  induction s as [|c s IH]; auto. cbn [exfat_spelled]. rewrite <- IH. change (translate exfat_table (c :: s)) with (exfat_table c ++ translate exfat_table s).
  destruct (N.eq_dec c 58) as [->|N].
  - change (exfat_table 58) with [58]. cbn [app]. rewrite R_colon. f_equal. destruct s as [|d s]; [reflexivity|]. rewrite head_space. reflexivity.
  - rewrite R_many by (now apply table_other). now rewrite spelling_other.
Qed.
Print Assumptions C53_exact.

Lemma spelling_legal c next : control c = false -> Forall (fun d => ~ exfat_illegal d) (exfat_spelling c next).
Proof.
  intros C. assert (L : forall d : chr, (32 <=? d) && negb (existsb (N.eqb d) (u "/\:*?""<>|")) = true -> ~ exfat_illegal d).
  { intros d E. apply andb_true_iff in E. destruct E as [E1 E2]. apply negb_true_iff in E2. intros [X|X]; [lia|]. assert (existsb (N.eqb d) (u "/\:*?""<>|") = true); [|congruence]. apply existsb_exists. exists d. split; auto. apply N.eqb_refl. }
  unfold exfat_spelling. rewrite C. destruct (c =? 58) eqn:E58; [destruct next as [d|]; [destruct (d =? 32)|]; repeat constructor; apply L; reflexivity|].
  destruct (existsb (N.eqb c) (u "/\")) eqn:E1; [repeat constructor; apply L; reflexivity|]. destruct ((c =? 0) || (c =? c1 "*")) eqn:E2; [repeat constructor; apply L; reflexivity|].
  destruct (c =? c1 "?") eqn:E3; [repeat constructor; apply L; reflexivity|]. destruct (c =? c1 """") eqn:E4; [repeat constructor; apply L; reflexivity|].
  destruct (c =? c1 "<") eqn:E5; [repeat constructor; apply L; reflexivity|]. destruct (c =? c1 ">") eqn:E6; [repeat constructor; apply L; reflexivity|]. destruct (c =? c1 "|") eqn:E7; [repeat constructor; apply L; reflexivity|].
  constructor; [|constructor]. apply L. apply orb_false_iff in E2. destruct E2 as [E2 E2']. unfold control in C. change (existsb (N.eqb c) (u "/\")) with ((c =? 47) || ((c =? 92) || false)) in E1.
  change (existsb (N.eqb c) (u "/\:*?""<>|")) with ((c =? 47) || ((c =? 92) || ((c =? 58) || ((c =? 42) || ((c =? 63) || ((c =? 34) || ((c =? 60) || ((c =? 62) || ((c =? 124) || false))))))))).
  change (c1 "*") with 42 in *. change (c1 "?") with 63 in *. change (c1 """") with 34 in *. change (c1 "<") with 60 in *. change (c1 ">") with 62 in *. change (c1 "|") with 124 in *.
  apply orb_false_iff in E1. destruct E1 as [E1 E1']. rewrite orb_false_r in E1'. rewrite E58, E1, E1', E2', E3, E4, E5, E6, E7. cbn [orb negb andb]. rewrite andb_true_r. apply N.leb_le. apply andb_false_iff in C. apply N.eqb_neq in E2. destruct C as [C|C]; lia.
Qed.
(** Without control characters (other than NUL) in s, every character of the result is legal;
    with one, the result has a question mark, which is not legal. *)
Theorem C53_legal_partial : forall s r, translate_filename_to_exfat s = Ok r -> (Forall (fun d => ~ exfat_illegal d) r <-> existsb control s = false).
Proof.
  assert (G : forall s, Forall (fun d => ~ exfat_illegal d) (exfat_spelled s) <-> existsb control s = false).
  2: { intros s r E. rewrite C53_exact in E. destruct s as [|c0 s0]; [discriminate|]. injection E as <-. exact (G (c0 :: s0)). }
  intros s. induction s as [|c s IH]; [cbn; split; constructor|].
  cbn [exfat_spelled existsb]. rewrite Forall_app, IH. assert (O : control c || existsb control s = false <-> control c = false /\ existsb control s = false) by apply orb_false_iff. etransitivity; [|symmetry; exact O]. clear O. split; [|intros [A B]; split; auto; now apply spelling_legal]. intros [A B]. split; auto.
  destruct (control c) eqn:C; auto. exfalso. unfold control in C. apply andb_true_iff in C. destruct C as [C1 C2]. apply N.leb_le in C1. apply N.ltb_lt in C2.
  rewrite spelling_other in A by lia. unfold exfat_table in A. assert (c =? 0 = false) as X by lia. rewrite X in A. assert (c <? 32 = true) as X2 by lia. rewrite X2 in A. inversion A as [|? ? H _]; subst. apply H. right. vm_compute. tauto.
Qed.
Print Assumptions C53_legal_partial.
Theorem C53_legal_refuted : translate_filename_to_exfat (u "a" ++ [9%N] ++ u "b") = Ok (u "a?09b") /\ exfat_illegal (c1 "?").
Proof. split; [reflexivity|]. right. vm_compute. tauto. Qed.
Print Assumptions C53_legal_refuted.
(** A legal filename is not changed; hence translating twice is the same as once (without control characters). *)
Theorem C53_unchanged : forall s, s <> [] -> Forall (fun d => ~ exfat_illegal d) s -> translate_filename_to_exfat s = Ok s.
Proof.
  intros s N F. rewrite C53_exact. destruct s as [|c0 s0]; [now destruct N|]. f_equal. revert F. apply (fun G : forall s, Forall (fun d => ~ exfat_illegal d) s -> exfat_spelled s = s => G (c0 :: s0)). clear. intros s F. induction F as [|c s H F IH]; auto. cbn [exfat_spelled]. rewrite IH.
  assert (Neq : forall d, In d (u "/\:*?""<>|") -> c <> d) by (intros d Hd ->; apply H; right; exact Hd). assert (Ge : 32 <= c) by (destruct (N.lt_ge_cases c 32); auto; exfalso; apply H; left; auto).
  assert (N58 : c <> 58) by (apply Neq; vm_compute; tauto). rewrite spelling_other by exact N58. unfold exfat_table.
  assert (c =? 0 = false) as -> by lia. assert (c <? 32 = false) as -> by lia.
  assert (E : forall d, In d (u "/\:*?""<>|") -> c =? d = false) by (intros d Hd; apply N.eqb_neq; auto).
  rewrite (E 47), (E 92), (E 42), (E 63), (E 34), (E 60), (E 62), (E 124) by (vm_compute; tauto). reflexivity.
Qed.
Print Assumptions C53_unchanged.
Theorem C53_idempotent : forall s r, existsb control s = false -> translate_filename_to_exfat s = Ok r -> translate_filename_to_exfat r = Ok r.
Proof.
  intros s r C E. apply C53_unchanged; [|now apply (C53_legal_partial s r E)]. rewrite C53_exact in E. destruct s as [|c s]; [discriminate|]. injection E as <-. cbn [exfat_spelled].
  assert (X : exfat_spelling c (hd_error s) <> []); [|destruct (exfat_spelling c (hd_error s)); [now destruct X|discriminate]].
  unfold exfat_spelling. repeat match goal with |- context [if ?b then _ else _] => destruct b end; try discriminate. destruct (hd_error s) as [d|]; [destruct (d =? 32)|]; discriminate.
Qed.
Print Assumptions C53_idempotent.
Example C53_witness : translate_filename_to_exfat (u "a: b/c:*?<d>|""e\") = Ok (u "a - b-c.@.{d}!'e-").
Proof. reflexivity. Qed.

(** The result is as long as s, has no NUL and no slash, and differs from s only where s has them. *)
Theorem C54_unix : forall s, match translate_filename_to_unix s with
  | Err e => s = [] /\ e = ValueError
  | Ok r => s <> [] /\ length r = length s /\ ~ In 0 r /\ ~ In (c1 "/") r /\
            (forall i d, nth_error s i = Some d -> nth_error r i = Some (if d =? 0 then c1 "@" else if d =? c1 "/" then c1 "-" else d)) /\
            translate_filename_to_unix r = Ok r
  end.
Proof.
  intros s. unfold translate_filename_to_unix. destruct s as [|c0 s0]; auto. assert (N : c0 :: s0 <> []) by discriminate. revert N. generalize (c0 :: s0). clear. intros s N.
  assert (E : translate unix_table s = map (fun d => if d =? 0 then c1 "@" else if d =? c1 "/" then c1 "-" else d) s).
  { clear. unfold translate. induction s as [|c s IH]; auto. cbn [map concat]. rewrite IH. unfold unix_table. change (c1 "/") with 47. destruct (c =? 0); [reflexivity|]. destruct (c =? 47); reflexivity. }
  split; auto. assert (L : length (translate unix_table s) = length s) by (rewrite E, map_length; auto). split; auto.
  assert (Z : Forall (fun d => d <> 0 /\ d <> 47) (translate unix_table s)).
  { rewrite E. apply Forall_forall. intros d Hd. apply in_map_iff in Hd. destruct Hd as (x & <- & _). change (c1 "/") with 47. destruct (x =? 0) eqn:X; [split; discriminate|]. destruct (x =? 47) eqn:Y; [split; discriminate|]. split; apply N.eqb_neq; auto. }
  rewrite Forall_forall in Z. split; [intros I; destruct (Z 0 I) as [A _]; now apply A|]. split; [intros I; destruct (Z _ I) as [_ A]; now apply A|]. split.
  - intros i d Hd. rewrite E. exact (map_nth_error (fun d => if d =? 0 then c1 "@" else if d =? c1 "/" then c1 "-" else d) i s Hd).
  - assert (T : translate unix_table (translate unix_table s) = translate unix_table s).
    { set (r := translate unix_table s) in *. clearbody r. clear - Z. unfold translate. induction r as [|c r IH]; auto. cbn [map concat]. rewrite IH by (intros d Hd; apply Z; right; auto). unfold unix_table. destruct (Z c ltac:(left; auto)) as [A B]. apply N.eqb_neq in A, B. rewrite A, B. reflexivity. }
    rewrite T. assert (X : translate unix_table s <> []) by (intros X; rewrite X in L; destruct s; [now destruct N|discriminate]). destruct (translate unix_table s); [now destruct X|reflexivity].
Qed.
Print Assumptions C54_unix.
Example C54_witness : translate_filename_to_unix (u "a/b" ++ [0%N] ++ u "c") = Ok (u "a-b@c").
Proof. reflexivity. Qed.
