(** The properties C69 (fgrep), C70 (fgrep ignoring case) and C71 (grep). *)
From Verif Require Import PyStrProof GrepModel GrepSpec GrepProof Regex RegexProof.

(** every file has exactly one list of lines *)
Theorem C69_lines : forall is_bytes raw, exists ls, lines_of is_bytes raw ls /\ forall ls', lines_of is_bytes raw ls' -> ls' = ls.
Proof. intros b raw. destruct (lines_total b raw) as [ls H]. exists ls. split; auto. intros ls' H'. exact (lines_unique b raw ls' ls H' H). Qed.
Print Assumptions C69_lines.

(** C69: for a non-empty text fgrep returns exactly the lines that contain it, in order; enumerate adds their numbers. *)
Theorem C69_fgrep_partial : forall E is_bytes encoding raw ls text, lines_of is_bytes raw ls -> text <> [] -> (is_bytes = true -> encoding = false) ->
  exists r, fgrep E is_bytes encoding (Ok raw) text true false = Ok (Numbered r) /\ fgrep E is_bytes encoding (Ok raw) text false false = Ok (Lines (map snd r)) /\
    those (fun t => part_of text (snd t)) (number_from_1 ls) r.
Proof.
  intros E b enc raw ls text L N Be. unfold fgrep. replace (b && enc) with false by (destruct b; auto; now rewrite Be). cbn [rbind negb].
  pose proof (is_in_nil text N) as F. eexists. split; [reflexivity|]. change (fun line => is_in text line) with (is_in text). rewrite (select_numbered (is_in text) b raw ls L F), (select_lines (is_in text) b raw ls L F).
  split; [unfold number_from_1; now rewrite numbered_lines|]. exists (fun t => is_in text (snd t)). split; [intros x; apply is_in_iff|reflexivity].
Qed.
Print Assumptions C69_fgrep_partial.
Example C69_witness : lines_of false (u "ab" ++ [13; 10]%N ++ u "ac" ++ [13]%N ++ u "xab") [u "ab"; u "ac"; u "xab"] /\
  fgrep ascii_tables false false (Ok (u "ab" ++ [13; 10]%N ++ u "ac" ++ [13]%N ++ u "xab")) (u "ab") true false = Ok (Numbered [(1, u "ab"); (3, u "xab")]).
Proof.
  split; [|reflexivity]. assert (T : forall l, forallb (fun c => negb (c =? 10)%N && negb (c =? 13)%N) l = true -> line_text false l).
  { intros l H. rewrite forallb_forall in H. split; intros; intros I; apply H in I; discriminate. }
  apply Line; [now apply T|now constructor|]. apply Line; [now apply T|constructor; [auto|discriminate]|]. apply LastLine; [discriminate|now apply T].
Qed.
(** bytes with an encoding: ValueError; the exception of open() is passed on *)
Theorem C69_errors : forall E encoding file text enumerate ci,
  (fgrep E true true file text enumerate ci = Err ValueError) /\
  (forall is_bytes e, is_bytes && encoding = false -> fgrep E is_bytes encoding (Err e) text enumerate ci = Err e).
Proof. intros. split; [reflexivity|]. intros b e H. unfold fgrep. now rewrite H. Qed.
Print Assumptions C69_errors.
(** The empty text is contained in every line; but fgrep returns one line too many if the file is
    empty or ends with a line break, as every text file should. *)
Theorem C69_empty_text_refuted : lines_of false (u "a" ++ [10%N]) [u "a"] /\
  fgrep ascii_tables false false (Ok (u "a" ++ [10%N])) [] true false = Ok (Numbered [(1, u "a"); (2, [])]).
Proof.
  split; [|reflexivity]. change (u "a" ++ [10%N]) with (u "a" ++ [10%N] ++ []). constructor; [|constructor|constructor].
  split; [intros [X|[]]; discriminate|intros _ [X|[]]; discriminate].
Qed.
Print Assumptions C69_empty_text_refuted.
Theorem C69_empty_text : forall E is_bytes raw ls, lines_of is_bytes raw ls ->
  fgrep E is_bytes false (Ok raw) [] true false =
    Ok (Numbered (number_from_1 (ls ++ if closed is_bytes raw then [[]] else []))).
Proof.
  intros E b raw ls L. unfold fgrep. rewrite andb_false_r. cbn [rbind negb]. rewrite (split_read b raw ls L). do 2 f_equal.
  generalize (ls ++ if closed b raw then [[]] else []). intros l. unfold enumerate1, number_from_1. generalize 1. induction l as [|x l IH]; intros k; auto. cbn [length seq combine filter snd].
  replace (is_in [] x) with true by (symmetry; apply is_in_iff; now exists [], x). now rewrite IH.
Qed.
Print Assumptions C69_empty_text.

(** C70: with case_insensitive, exactly the lines are returned whose lowercase contains the lowercase text,
    as if each line had been lowercased on its own. *)
Theorem C70_fgrep : forall E is_bytes encoding raw ls text, lowercase_laws E -> lines_of is_bytes raw ls -> text <> [] -> (is_bytes = true -> encoding = false) ->
  exists r, fgrep E is_bytes encoding (Ok raw) text true true = Ok (Numbered r) /\ fgrep E is_bytes encoding (Ok raw) text false true = Ok (Lines (map snd r)) /\
    those (fun t => part_of (lower E text) (lower E (snd t))) (number_from_1 ls) r.
Proof.
  intros E b enc raw ls text LL L N Be. unfold fgrep. replace (b && enc) with false by (destruct b; auto; now rewrite Be). cbn [rbind negb].
  rewrite (split_lower E LL). set (f := fun l => is_in (lower E text) (lower E l)).
  assert (F : f [] = false) by (unfold f; apply is_in_nil, lower_nonempty; auto).
  unfold enumerate1. rewrite combine_length, map_length, Nat.min_id. rewrite (enum_lower E (is_in (lower E text))), (zip_lower E (is_in (lower E text))).
  fold f. change (fun t : nat * str => is_in (lower E text) (lower E (snd t))) with (fun t : nat * str => f (snd t)).
  eexists. split; [reflexivity|]. fold (@enumerate1 str (split_lines (read b raw))).
  rewrite (select_numbered f b raw ls L F), (select_lines f b raw ls L F).
  split; [unfold number_from_1; now rewrite numbered_lines|]. exists (fun t => f (snd t)). split; [intros x; apply is_in_iff|reflexivity].
Qed.
Print Assumptions C70_fgrep.
Example C70_witness : lowercase_laws ascii_tables /\
  fgrep ascii_tables true false (Ok (u "xAb" ++ [10%N] ++ u "a" ++ [10%N] ++ u "aBAB")) (u "aB") true true = Ok (Numbered [(1, u "xAb"); (3, u "aBAB")]).
Proof. split; [apply ascii_laws|reflexivity]. Qed.
(** C70: so on lines whose characters lower() maps one by one, a line is found if and only if a part of it
    equals the text when both are lowercased; in particular, then, if it contains the text. *)
Theorem C70_part_partial : forall E text line, (forall c, In c line -> c <> 931%N /\ length (lower1 E c) = 1) ->
  (part_of (lower E text) (lower E line) <-> exists w, part_of w line /\ lower E w = lower E text).
Proof. intros E text line H. apply part_simple. apply Forall_forall. exact H. Qed.
Print Assumptions C70_part_partial.
Example C70_part_witness : forall c, In c (u "Hello World") -> c <> 931%N /\ length (lower1 ascii_tables c) = 1.
Proof. intros c I. split; [|reflexivity]. intros ->. cbn in I. repeat (destruct I as [I|I]; [discriminate|]). destruct I. Qed.
(** In Greek that is false: the text OMICRON SIGMA is in the line OMICRON SIGMA OMICRON, and fgrep finds it,
    but not with case_insensitive.  (True of every tables with these three entries, as Unicode's.) *)
Theorem C70_sigma_refuted : forall E, lower1 E 927%N = [959%N] -> cased E 927%N = true -> ignorable E 927%N = false ->
  let line := [927; 931; 927]%N in let text := [927; 931]%N in
  fgrep E false false (Ok line) text false false = Ok (Lines [line]) /\ fgrep E false false (Ok line) text false true = Ok (Lines []).
Proof.
  intros E H1 H2 H3 line text. split; [reflexivity|]. unfold fgrep. cbn [andb rbind negb].
  assert (A : lower E line = [959; 963; 959]%N) by (unfold lower, line; cbn [lower_from next_cased]; rewrite H1, ?H2, ?H3; reflexivity).
  assert (B : lower E text = [959; 962]%N) by (unfold lower, text; cbn [lower_from next_cased]; rewrite H1, ?H2, ?H3; reflexivity).
  change (read false line) with line. rewrite A, B. reflexivity.
Qed.
Print Assumptions C70_sigma_refuted.
(** tables that satisfy all the hypotheses used here *)
Definition greek_tables : case_tables :=
  CaseTables (fun c => if (913 <=? c)%N && (c <=? 939)%N then [(c + 32)%N] else lower1 ascii_tables c) (fun c => (913 <=? c)%N && (c <=? 971)%N) (fun c => (c =? 39)%N).
Example C70_greek_witness : lowercase_laws greek_tables /\ lower1 greek_tables 927%N = [959%N] /\ cased greek_tables 927%N = true /\ ignorable greek_tables 927%N = false.
Proof.
  split; [|repeat split]. pose proof ascii_laws as A. split; try reflexivity.
  - intros c. cbn [greek_tables lower1]. destruct ((913 <=? c)%N && (c <=? 939)%N); [|apply (only_newline _ A)]. intros [X|[]]. lia.
  - intros c. cbn [greek_tables lower1]. destruct ((913 <=? c)%N && (c <=? 939)%N); [discriminate|apply (never_empty _ A)].
Qed.
(** And a character that lower() makes two of (I with dot above) is found by its first half. *)
Theorem C70_dotted_refuted : forall E, lower1 E 304%N = [105; 775]%N -> lower1 E 105%N = [105%N] ->
  fgrep E false false (Ok [304%N]) [105%N] false true = Ok (Lines [[304%N]]) /\ forall w, part_of w [304%N] -> lower E w <> lower E [105%N].
Proof.
  intros E H1 H2. assert (A : lower E [304%N] = [105; 775]%N) by (unfold lower; cbn [lower_from]; rewrite H1; reflexivity).
  assert (B : lower E [105%N] = [105%N]) by (unfold lower; cbn [lower_from]; rewrite H2; reflexivity).
  split.
  - unfold fgrep. cbn [andb rbind negb]. change (read false [304%N]) with [304%N]. rewrite A, B. reflexivity.
  - intros w (a & b & Q). rewrite B. destruct a as [|x a].
    + destruct w as [|y w]; [discriminate|]. injection Q as <- Q. symmetry in Q. apply app_eq_nil in Q as [-> _]. intros X. pose proof (eq_trans (eq_sym A) X). discriminate.
    + injection Q as <- Q. symmetry in Q. apply app_eq_nil in Q as [_ Q]. apply app_eq_nil in Q as [-> _]. discriminate.
Qed.
Print Assumptions C70_dotted_refuted.

(** C71: grep returns exactly the lines in which the pattern matches somewhere, in order, if it does not match an empty line. *)
Theorem C71_grep_partial : forall is_bytes encoding raw ls p, lines_of is_bytes raw ls -> p_match p [] 0 0 = None -> (is_bytes = true -> encoding = false) ->
  exists r, grep is_bytes encoding (Ok raw) p true = Ok (Numbered r) /\ grep is_bytes encoding (Ok raw) p false = Ok (Lines (map snd r)) /\
    those (fun t => exists start e, start <= length (snd t) /\ p_match p (snd t) start (length (snd t)) = Some e) (number_from_1 ls) r.
Proof.
  intros b enc raw ls p L N Be. unfold grep. replace (b && enc) with false by (destruct b; auto; now rewrite Be). cbn [rbind].
  set (f := fun line => match re_search p line with Some _ => true | None => false end).
  assert (F : f [] = false) by (unfold f, re_search; cbn [length search_from]; now rewrite N).
  eexists. split; [reflexivity|]. change (fun t : nat * str => match re_search p (snd t) with Some _ => true | None => false end) with (fun t : nat * str => f (snd t)).
  rewrite (select_numbered f b raw ls L F), (select_lines f b raw ls L F).
  split; [unfold number_from_1; now rewrite numbered_lines|]. exists (fun t => f (snd t)). split; [|reflexivity].
  intros [k l]. unfold f, re_search. rewrite search_iff. cbn [snd]. split; intros (i & e & H & H'); exists i, e; (split; [lia|auto]).
Qed.
Print Assumptions C71_grep_partial.
(** a pattern made of a regular expression of Regex.v; here the text it sees ends where the line does *)
Definition pattern_of (r : re) : pattern :=
  let at_pos (ok : bool -> bool) (s : str) (a e : nat) := let e := min e (length s) in if a <=? e then rmatch r (skipn a (firstn e s)) [] (fun (rest : str) (_ : groups) => if ok (length rest <? e - a) then Some (e - length rest) else None) else None in
  Pattern (at_pos (fun _ => true)) (at_pos (fun longer => longer)).
Example C71_witness : p_match (pattern_of (Seq (Chr (fun c => (c =? 97)%N)) Eol)) [] 0 0 = None /\
  grep false false (Ok (u "ab" ++ [10%N] ++ u "ba" ++ [10%N])) (pattern_of (Seq (Chr (fun c => (c =? 97)%N)) Eol)) true = Ok (Numbered [(2, u "ba")]).
Proof. split; reflexivity. Qed.
(** grep('^$') (every regular expression that matches the empty line): one line too many *)
Theorem C71_empty_line_refuted : lines_of false (u "a" ++ [10%N]) [u "a"] /\ p_match (pattern_of Eol) (u "a") 0 0 = Some 0 /\
  forall r, p_match (pattern_of r) [] 0 0 <> None ->
  exists l, grep false false (Ok (u "a" ++ [10%N])) (pattern_of r) true = Ok (Numbered l) /\ In (2, []) l.
Proof.
  split; [apply C69_empty_text_refuted|]. split; [reflexivity|]. intros r M. eexists. split; [reflexivity|].
  change (split_lines (GrepModel.read false (u "a" ++ [10%N]))) with [u "a"; []]. cbn [enumerate1 length seq combine filter snd].
  assert (S : match re_search (pattern_of r) [] with Some _ => true | None => false end = true).
  { unfold re_search. cbn [length search_from]. destruct (p_match (pattern_of r) [] 0 0); [reflexivity|congruence]. }
  destruct (re_search (pattern_of r) (u "a")); cbn [filter snd]; rewrite S; [right|]; left; reflexivity.
Qed.
Print Assumptions C71_empty_line_refuted.
Theorem C71_errors : forall encoding file p enumerate,
  grep true true file p enumerate = Err ValueError /\
  (forall is_bytes e, is_bytes && encoding = false -> grep is_bytes encoding (Err e) p enumerate = Err e).
Proof. intros. split; [reflexivity|]. intros b e H. unfold grep. now rewrite H. Qed.
Print Assumptions C71_errors.
(** C71 for every pattern: the same, but an empty file and one that ends with a line break are taken
    to have one more, empty line at the end. *)
Theorem C71_grep_exact : forall is_bytes encoding raw ls p, lines_of is_bytes raw ls -> (is_bytes = true -> encoding = false) ->
  exists r, grep is_bytes encoding (Ok raw) p true = Ok (Numbered r) /\ grep is_bytes encoding (Ok raw) p false = Ok (Lines (map snd r)) /\
    those (fun t => exists start e, start <= length (snd t) /\ p_match p (snd t) start (length (snd t)) = Some e)
      (number_from_1 (ls ++ if closed is_bytes raw then [[]] else [])) r.
Proof.
  intros b enc raw ls p L Be. unfold grep. replace (b && enc) with false by (destruct b; auto; now rewrite Be). cbn [rbind].
  rewrite (split_read b raw ls L). set (lines := ls ++ _).
  set (f := fun line => match re_search p line with Some _ => true | None => false end).
  eexists. split; [reflexivity|]. change (fun t : nat * str => match re_search p (snd t) with Some _ => true | None => false end) with (fun t : nat * str => f (snd t)).
  split; [unfold enumerate1; now rewrite numbered_lines|]. exists (fun t => f (snd t)). split; [|reflexivity].
  intros [k l]. unfold f, re_search. rewrite search_iff. cbn [snd]. split; intros (i & e & H & H'); exists i, e; (split; [lia|auto]).
Qed.
Print Assumptions C71_grep_exact.
(** C71_grep_exact: the hypotheses are met by a file of two lines whose last line break is followed by nothing *)
Example C71_exact_witness : lines_of true (u "ab" ++ [10%N] ++ u "c" ++ [10%N]) [u "ab"; u "c"] /\ closed true (u "ab" ++ [10%N] ++ u "c" ++ [10%N]) = true /\
  grep true false (Ok (u "ab" ++ [10%N] ++ u "c" ++ [10%N])) (pattern_of Eol) true = Ok (Numbered [(1, u "ab"); (2, u "c"); (3, [])]).
Proof.
  split; [|split; reflexivity].
  assert (L : forall l, ~ In 10%N l -> line_text true l) by (intros l H; split; [exact H|discriminate]).
  apply (Line true (u "ab") [10%N] (u "c" ++ [10%N]) [u "c"]); [apply L; vm_compute; intuition discriminate | constructor |].
  apply (Line true (u "c") [10%N] [] []); [apply L; vm_compute; intuition discriminate | constructor | constructor].
Qed.
