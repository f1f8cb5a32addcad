(** C137: the two filename translations together, and names translated in parts. *)
From Verif Require Import PyBase PyStr FilenameModel FilenameSpec FilenameProps.
Open Scope N_scope.

Lemma unix_fixed s : Forall (fun d => d <> 0 /\ d <> 47) s -> translate unix_table s = s.
Proof.
  induction 1 as [|c s [H1 H2] _ IH]; auto. unfold translate in *. cbn [map concat]. rewrite IH. unfold unix_table. apply N.eqb_neq in H1, H2. now rewrite H1, H2.
Qed.
Lemma hex_digits n : (n < 16)%nat -> forall w, nth n (u "0123456789abcdef") 0 = w -> w <> 0 /\ w <> 47.
Proof. intros L w <-. do 16 (destruct n as [|n]; [vm_compute; split; discriminate|]). exfalso. lia. Qed.
Lemma spelling_unix c next : Forall (fun d => d <> 0 /\ d <> 47) (exfat_spelling c next).
Proof.
  unfold exfat_spelling. destruct (c =? 58); [destruct next as [d|]; [destruct (d =? 32)|]; repeat constructor; vm_compute; discriminate|].
  destruct (existsb (N.eqb c) (u "/\")) eqn:E1; [repeat constructor; vm_compute; discriminate|]. destruct ((c =? 0) || (c =? c1 "*")) eqn:E2; [repeat constructor; vm_compute; discriminate|].
  destruct (c =? c1 "?"); [repeat constructor; vm_compute; discriminate|]. destruct (c =? c1 """"); [repeat constructor; vm_compute; discriminate|]. destruct (c =? c1 "<"); [repeat constructor; vm_compute; discriminate|].
  destruct (c =? c1 ">"); [repeat constructor; vm_compute; discriminate|]. destruct (c =? c1 "|"); [repeat constructor; vm_compute; discriminate|]. destruct (control c) eqn:C.
  - apply Forall_app. split; [repeat constructor; vm_compute; discriminate|]. unfold control in C. apply andb_true_iff in C. rewrite N.leb_le, N.ltb_lt in C. apply Forall_app. split.
    + assert (c / 16 < 2) by (apply N.div_lt_upper_bound; lia). assert (K : c / 16 = 0 \/ c / 16 = 1) by lia. destruct K as [-> | ->]; repeat constructor; vm_compute; discriminate.
    + constructor; [|constructor]. eapply hex_digits; [|reflexivity]. pose proof (N.mod_lt c 16 ltac:(discriminate)). lia.
  - constructor; [|constructor]. apply orb_false_iff in E2. destruct E2 as [E2 _]. apply N.eqb_neq in E2. cbn in E1. apply orb_false_iff in E1. destruct E1 as [E1 _]. apply N.eqb_neq in E1. auto.
Qed.
Lemma spelled_unix s : Forall (fun d => d <> 0 /\ d <> 47) (exfat_spelled s).
Proof. induction s as [|c s IH]; cbn; [constructor|]. apply Forall_app. split; auto. apply spelling_unix. Qed.
Lemma unix_spelled s : exfat_spelled (translate unix_table s) = exfat_spelled s.
Proof.
  induction s as [|c s IH]; auto. assert (H : hd_error (translate unix_table s) = option_map (fun c => if c =? 0 then c1 "@" else if c =? 47 then c1 "-" else c) (hd_error s)).
  { destruct s as [|d s]; auto. cbn. unfold unix_table. destruct (d =? 0); auto. destruct (d =? 47); auto. }
  unfold translate in *. cbn [map concat]. unfold unix_table at 1. change (u "@") with [c1 "@"]. change (u "-") with [c1 "-"]. destruct (c =? 0) eqn:E0; [apply N.eqb_eq in E0; subst; cbn [app exfat_spelled]; rewrite IH; reflexivity|].
  destruct (c =? 47) eqn:E1; [apply N.eqb_eq in E1; subst; cbn [app exfat_spelled]; rewrite IH; reflexivity|]. cbn [app exfat_spelled]. rewrite IH. f_equal. rewrite H. unfold exfat_spelling. destruct (c =? 58); auto.
  destruct s as [|d s]; auto. cbn [hd_error option_map]. destruct (d =? 0) eqn:D0; [apply N.eqb_eq in D0; subst; reflexivity|]. destruct (d =? 47) eqn:D1; [apply N.eqb_eq in D1; subst; reflexivity|reflexivity].
Qed.
(** A name translated for exFAT is legal on Unix as it is; translating for Unix first makes no
    difference to exFAT. *)
Theorem C137_both_systems : forall s,
  (forall r, translate_filename_to_exfat s = Ok r -> translate_filename_to_unix r = Ok r) /\
  (forall r, translate_filename_to_unix s = Ok r -> translate_filename_to_exfat r = translate_filename_to_exfat s).
Proof.
  intros s. split; intros r E.
  - rewrite C53_exact in E. destruct s as [|c s]; [discriminate|]. injection E as <-. unfold translate_filename_to_unix. rewrite unix_fixed by exact (spelled_unix (c :: s)).
    destruct (exfat_spelled (c :: s)) as [|a x] eqn:X; [exfalso|cbn [exfat_spelled] in X; now rewrite X]. cbn [exfat_spelled] in X. apply app_eq_nil in X. destruct X as [X _]. revert X. unfold exfat_spelling.
    repeat match goal with |- context [if ?b then _ else _] => destruct b | |- context [match hd_error s with _ => _ end] => destruct (hd_error s) end; discriminate.
  - rewrite !C53_exact. destruct s as [|c s]; [discriminate|]. cbn [translate_filename_to_unix] in E. injection E as <-. rewrite unix_spelled.
    destruct (translate unix_table (c :: s)) eqn:X; auto. exfalso. unfold translate in X. cbn in X. unfold unix_table in X. destruct (c =? 0); [discriminate|]. destruct (c =? 47); discriminate.
Qed.
Print Assumptions C137_both_systems.
Lemma spelled_app a b : ~ (exists x y, a = x ++ [58] /\ b = 32 :: y) -> exfat_spelled (a ++ b) = exfat_spelled a ++ exfat_spelled b.
Proof.
  induction a as [|c a IH]; intros H; auto. cbn [app exfat_spelled]. rewrite IH; [|intros (x & y & -> & ->); apply H; exists (c :: x), y; auto]. rewrite app_assoc. f_equal. f_equal.
  destruct a as [|d a]; [|reflexivity]. cbn [app hd_error]. unfold exfat_spelling. destruct (c =? 58) eqn:C; auto. destruct b as [|d b]; auto. cbn [hd_error]. destruct (d =? 32) eqn:D; auto.
  exfalso. apply N.eqb_eq in C, D. subst. apply H. exists [], b. auto.
Qed.
(** The parts of a name (a stem and an extension, say) can be translated separately, unless
    the name is cut between a colon and a space. *)
Theorem C137_parts : forall a b, a <> [] -> b <> [] ->
  (exists ra rb, translate_filename_to_unix a = Ok ra /\ translate_filename_to_unix b = Ok rb /\ translate_filename_to_unix (a ++ b) = Ok (ra ++ rb)) /\
  (~ (exists x y, a = x ++ [58] /\ b = 32 :: y) ->
   exists ra rb, translate_filename_to_exfat a = Ok ra /\ translate_filename_to_exfat b = Ok rb /\ translate_filename_to_exfat (a ++ b) = Ok (ra ++ rb)).
Proof.
  intros a b Na Nb. destruct a as [|c a]; [congruence|]. destruct b as [|d b]; [congruence|]. split.
  - do 2 eexists. split; [reflexivity|]. split; [reflexivity|]. cbn [app translate_filename_to_unix]. f_equal. unfold translate. change (c :: a ++ d :: b) with ((c :: a) ++ d :: b). now rewrite map_app, concat_app.
  - intros H. rewrite !C53_exact. do 2 eexists. split; [reflexivity|]. split; [reflexivity|]. cbn [app]. f_equal. change (c :: a ++ d :: b) with ((c :: a) ++ d :: b). now apply spelled_app.
Qed.
Print Assumptions C137_parts.
Theorem C137_parts_refuted : translate_filename_to_exfat (u "a:") = Ok (u "a.") /\ translate_filename_to_exfat (u " b") = Ok (u " b") /\ translate_filename_to_exfat (u "a: b") = Ok (u "a - b").
Proof. repeat split; reflexivity. Qed.
Print Assumptions C137_parts_refuted.
Example C137_witness : translate_filename_to_exfat (u "a/b: c?") = Ok (u "a-b - c.") /\ translate_filename_to_unix (u "a/b: c?") = Ok (u "a-b: c?") /\
  ~ (exists x y, u "a/b" = x ++ [58] /\ u ": c?" = 32 :: y).
Proof. split; [reflexivity|]. split; [reflexivity|]. intros (x & y & _ & E). discriminate. Qed.
