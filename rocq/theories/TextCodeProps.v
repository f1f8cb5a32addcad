(** Theorems about split_text_with_code. *)
From Verif Require Import PyStrProof TextCodeModel TextCodeSpec TextCodeProof TextCodeProof2 TextCodeProof3.

(** C76: no character that is not whitespace is invented, reordered or lost ... *)
Theorem C76_keeps_text_partial is_bytes tab_width allow_code code_indent conv s words :
  split_text_with_code is_bytes tab_width allow_code code_indent conv s = Ok words ->
  exists lost, ink is_bytes s = ink is_bytes (concat words) ++ lost /\
    (allow_code = false \/ (exists a b, s = a ++ [10%N] ++ b /\ blank_text is_bytes b) -> lost = []).
Proof. apply split_ink. Qed.
Print Assumptions C76_keeps_text_partial.
(** ... unless the last line is code and has no newline: "    x" *)
Theorem C76_keeps_text_refuted :
  exists s, split_text_with_code false 8 true 4 true s = Ok [[]] /\ ink false s <> [].
Proof. exists [32; 32; 32; 32; 120]%N. split; [reflexivity|discriminate]. Qed.
Print Assumptions C76_keeps_text_refuted.

(** C77: without code, the words of the paragraphs; never an exception. *)
Theorem C77_paragraphs is_bytes tab_width code_indent conv s :
  (exists lines classes, lines_of s lines /\ Forall2 (is_class is_bytes tab_width false code_indent conv) lines classes) /\
  (forall lines classes, lines_of s lines -> Forall2 (is_class is_bytes tab_width false code_indent conv) lines classes ->
     Forall (fun cl => forall t, cl <> Code t) classes /\
     split_text_with_code is_bytes tab_width false code_indent conv s = Ok (all_words (group classes))).
Proof.
  split.
  - destruct (lines_exist s) as (lines & A & B & C). destruct (classes_exist is_bytes tab_width false code_indent conv lines (or_introl eq_refl) C) as (classes & F & _).
    exists lines, classes. repeat split; assumption.
  - intros lines classes (NE & J & N) F. subst s.
    assert (NC : Forall (fun cl => forall t, cl <> Code t) classes).
    { clear -F. induction F as [|? ? ? ? C F IH]; constructor; [|exact IH]. intros t ->. inversion C as [| |? ? ? ? ? [I _]]. discriminate I. }
    split; [exact NC|].
    apply split_lines; try assumption.
    + discriminate.
    + intros t. destruct classes as [|x classes] using rev_ind; [discriminate|]. rewrite last_last. rewrite Forall_app in NC. destruct NC as [_ NC]. inversion NC; auto.
    + replace (code_blocks (group classes)) with 0; [lia|]. symmetry. clear -NC. induction NC as [|cl classes H NC IH]; [reflexivity|]. destruct cl; [exact IH|rewrite cb_text; exact IH|destruct (H text); reflexivity].
Qed.
Print Assumptions C77_paragraphs.

(** C78: with code, code blocks are kept line by line and paragraphs word by word ... *)
Theorem C78_blocks_partial is_bytes tab_width code_indent conv s : 0 < tab_width ->
  ((forall c, In c s -> white is_bytes c = true -> c = 9%N \/ c = 10%N \/ c = 32%N) ->
   exists lines classes, lines_of s lines /\ Forall2 (is_class is_bytes tab_width true code_indent conv) lines classes) /\
  (forall lines classes, lines_of s lines -> Forall2 (is_class is_bytes tab_width true code_indent conv) lines classes ->
     (forall t, last classes Blank <> Code t) -> length (filter is_code_block (group classes)) <= 1 ->
     split_text_with_code is_bytes tab_width true code_indent conv s = Ok (all_words (group classes))).
Proof.
  intros P. split.
  - intros H. destruct (lines_exist s) as (lines & A & B & C). subst s. destruct (classes_exist is_bytes tab_width true code_indent conv lines (or_intror H) C) as (classes & F & _).
    exists lines, classes. repeat split; assumption.
  - intros lines classes (NE & J & N) F LC CB. subst s. apply split_lines; auto.
Qed.
Print Assumptions C78_blocks_partial.
(** ... but not with two code blocks: "    a\nb\n    c\n" raises, "    a\nb\n\n    c\n" has a newline too many *)
Theorem C78_blocks_refuted :
  exists s1 s2 c1 c2, lines_of s1 [[32;32;32;32;97]; [98]; [32;32;32;32;99]; []]%N /\ lines_of s2 [[32;32;32;32;97]; [98]; []; [32;32;32;32;99]; []]%N /\
    Forall2 (is_class false 8 true 4 true) [[32;32;32;32;97]; [98]; [32;32;32;32;99]; []]%N c1 /\
    Forall2 (is_class false 8 true 4 true) [[32;32;32;32;97]; [98]; []; [32;32;32;32;99]; []]%N c2 /\
    split_text_with_code false 8 true 4 true s1 = Err AssertionError /\
    split_text_with_code false 8 true 4 true s2 = Ok [[32;32;32;32;97]; [10;10]; [98]; [10;10]; [10]; [32;32;32;32;99]]%N /\
    all_words (group c2) = [[32;32;32;32;97]; [10;10]; [98]; [10;10]; [32;32;32;32;99]]%N.
Proof.
  assert (CL : forall x, white false x = false -> tokens_of false [32;32;32;32;x]%N [([32;32;32;32]%N, [x])]).
  { intros x W. apply (Token false [32;32;32;32]%N [x] [] []); [repeat constructor|split; [discriminate|repeat constructor; exact W]|discriminate|repeat constructor]. }
  assert (C1 : forall x, white false x = false -> is_class false 8 true 4 true [32;32;32;32;x]%N (Code (expand 8 [32;32;32;32;x]%N 0))).
  { intros x W. refine (IsCode false 8 true 4 true [32;32;32;32;x]%N [32;32;32;32]%N [x] [] (CL x W) _ _).
    - split; [reflexivity|]. exists 4. split; [reflexivity|lia].
    - repeat (constructor; auto). }
  assert (C2 : is_class false 8 true 4 true [98]%N (Text [[98]%N])).
  { apply (IsText false 8 true 4 true [98]%N [] [98]%N []); [|intros _; exists 0; split; [reflexivity|lia]].
    apply (Token false [] [98]%N [] []); [constructor|split; [discriminate|repeat constructor]|discriminate|repeat constructor]. }
  assert (C3 : is_class false 8 true 4 true [] Blank) by (repeat constructor).
  assert (NI : forall l : str, existsb (N.eqb 10) l = false -> ~ In 10%N l).
  { intros l H I. rewrite (proj2 (existsb_exists (N.eqb 10) l)) in H; [discriminate|]. exists 10%N. split; [exact I|reflexivity]. }
  eexists _, _, _, _. split; [|split; [|split; [|split; [|split; [|split]]]]].
  - split; [discriminate|]. split; [reflexivity|]. repeat (constructor; [apply NI; reflexivity|]). constructor.
  - split; [discriminate|]. split; [reflexivity|]. repeat (constructor; [apply NI; reflexivity|]). constructor.
  - constructor; [apply C1; reflexivity|]. constructor; [exact C2|]. constructor; [apply C1; reflexivity|]. constructor; [exact C3|constructor].
  - constructor; [apply C1; reflexivity|]. constructor; [exact C2|]. constructor; [exact C3|]. constructor; [apply C1; reflexivity|]. constructor; [exact C3|constructor].
  - reflexivity.
  - reflexivity.
  - reflexivity.
Qed.
Print Assumptions C78_blocks_refuted.

(** "ab c\nd\n\n\tx  y\n\n    z\ne" *)
Example ex_text_with_code : split_text_with_code false 8 true 4 true [97;98;32;99;10;100;10;10;9;120;32;32;121;10;10;32;32;32;32;122;10;101]%N =
  Ok [[97;98]; [99]; [100]; [10;10]; [32;32;32;32;32;32;32;32;120;32;32;121]; [10]; [10]; [32;32;32;32;122]; [10;10]; [101]]%N.
Proof. reflexivity. Qed.
Example ex_text_with_code_spec :
  all_words (group [Text [[97;98]; [99]]; Text [[100]]; Blank; Code [32;32;32;32;32;32;32;32;120;32;32;121]; Blank; Code [32;32;32;32;122]; Text [[101]]])%N =
  [[97;98]; [99]; [100]; [10;10]; [32;32;32;32;32;32;32;32;120;32;32;121]; [10]; [10]; [32;32;32;32;122]; [10;10]; [101]]%N.
Proof. reflexivity. Qed.
Example ex_text_without_code : split_text_with_code false 8 false 4 true [9;97;10;10;32;12;98]%N = Ok [[97]; [10;10]; [98]]%N.
Proof. reflexivity. Qed.
(** other whitespace before a word of the first column raises *)
Example ex_other_whitespace : split_text_with_code false 8 true 4 true [12;97]%N = Err RuntimeError.
Proof. reflexivity. Qed.
