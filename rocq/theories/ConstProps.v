(** The tuples of separators: the property C95. *)
From Verif Require Import ConstModel ConstSpec SplitProof PyBaseProof PyStrProof.
From Coq Require Import Lia.

Fixpoint nodupb (l : list str) : bool := match l with [] => true | x :: t => negb (existsb (str_eqb x) t) && nodupb t end.
Lemma nodupb_ok l : nodupb l = true -> NoDup l.
Proof.
  induction l as [|x l IH]; cbn; constructor; apply andb_true_iff in H as [A B]; auto. intros I. apply negb_true_iff in A. apply not_true_iff_false in A. apply A. apply existsb_exists. exists x. split; auto. apply str_eqb_refl.
Qed.
(** the characters of the one-character strings in l *)
Definition chars (l : list str) : list N := flat_map (fun w => match w with [c] => [c] | _ => [] end) l.
Definition only_crlf (l : list str) (b : bool) : bool :=
  forallb (fun w => match w with [_] => true | _ => b && str_eqb w crlf end) l && (negb b || existsb (str_eqb crlf) l).
Lemma exactly_by l p b : nodupb l = true -> only_crlf l b = true -> (forall c, In c (chars l) <-> p c) -> exactly l p b.
Proof.
  intros N C H. split; [now apply nodupb_ok|]. unfold only_crlf in C. apply andb_true_iff in C as [C1 C2]. rewrite forallb_forall in C1.
  assert (K : forall c, In [c] l <-> In c (chars l)).
  { intros c. unfold chars. rewrite in_flat_map. split; [intros I; exists [c]; cbn; auto|]. intros (w & I & J). destruct w as [|d [|e w]]; try destruct J as []; subst; auto. destruct H0. }
  intros w. split.
  - intros I. specialize (C1 _ I). destruct w as [|c [|d w]].
    + apply andb_true_iff in C1 as [B Q]. apply str_eqb_eq in Q. discriminate.
    + left. exists c. split; auto. apply H, K, I.
    + apply andb_true_iff in C1 as [B Q]. apply str_eqb_eq in Q. auto.
  - intros [(c & -> & P)|[-> ->]]; [apply K, H, P|]. apply orb_true_iff in C2 as [C2|C2]; [discriminate|]. apply existsb_exists in C2 as (x & I & Q). apply str_eqb_eq in Q. now subst.
Qed.
Ltac by_numbers := apply exactly_by; [vm_compute; reflexivity|vm_compute; reflexivity|
  let c := fresh "c" in intros c; unfold python_space, python_linebreak, bytes_space, bytes_linebreak, ascii_separator, is_space, between;
  rewrite ?orb_true_iff, ?andb_true_iff, ?N.leb_le, ?N.eqb_eq; vm_compute chars; cbn [In]; lia].

(** str_whitespace is exactly what str.isspace() says, and "\r\n"; unicode_whitespace without the
    four ASCII separators; ascii_whitespace what of that is ASCII; bytes_whitespace what
    bytes.isspace() says; and each ..._without_crlf the same without "\r\n". *)
Theorem C95_whitespace : forall crlf_too : bool,
  exactly (if crlf_too then str_whitespace else str_whitespace_without_crlf) python_space crlf_too /\
  exactly (if crlf_too then unicode_whitespace else unicode_whitespace_without_crlf) (fun c => python_space c /\ ~ ascii_separator c) crlf_too /\
  exactly (if crlf_too then ascii_whitespace else ascii_whitespace_without_crlf) (fun c => python_space c /\ ~ ascii_separator c /\ (c < 128)%N) crlf_too /\
  exactly (if crlf_too then bytes_whitespace else bytes_whitespace_without_crlf) bytes_space crlf_too.
Proof. intros []; (split; [|split; [|split]]); by_numbers. Qed.
Print Assumptions C95_whitespace.
(** The same for line breaks.  Line breaks of bytes are \n and \r only, not \v and \f. *)
Theorem C95_linebreaks : forall crlf_too : bool,
  exactly (if crlf_too then str_linebreaks else str_linebreaks_without_crlf) python_linebreak crlf_too /\
  exactly (if crlf_too then unicode_linebreaks else unicode_linebreaks_without_crlf) (fun c => python_linebreak c /\ ~ ascii_separator c) crlf_too /\
  exactly (if crlf_too then ascii_linebreaks else ascii_linebreaks_without_crlf) (fun c => python_linebreak c /\ ~ ascii_separator c /\ (c < 128)%N) crlf_too /\
  exactly (if crlf_too then bytes_linebreaks else bytes_linebreaks_without_crlf) bytes_linebreak crlf_too.
Proof. intros []; (split; [|split; [|split]]); by_numbers. Qed.
Print Assumptions C95_linebreaks.
(** bytes_linebreaks is what the code at lines 284-300 builds; bytes_whitespace is made of bytes objects *)
Theorem C95_bytes_built : bytes_linebreaks = bytes_linebreaks_built /\ bytes_whitespace_value = Ok (VTuple 0 (map (VBytes 0) bytes_whitespace)).
Proof. split; reflexivity. Qed.
Print Assumptions C95_bytes_built.
(** every line break is white space, as str and as bytes *)
Theorem C95_linebreaks_are_whitespace : incl str_linebreaks str_whitespace /\ incl unicode_linebreaks unicode_whitespace /\ incl ascii_linebreaks ascii_whitespace /\ incl bytes_linebreaks bytes_whitespace.
Proof. repeat split; intros w I; repeat (destruct I as [<-|I]; [vm_compute; tauto|]); destruct I. Qed.
Print Assumptions C95_linebreaks_are_whitespace.
Example C95_witness : In [133%N] unicode_whitespace /\ ~ In [28%N] unicode_whitespace /\ In (u " ") bytes_whitespace.
Proof. split; [|split]; vm_compute; intuition discriminate. Qed.
