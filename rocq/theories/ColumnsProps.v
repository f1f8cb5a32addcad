(** C128: paragraphs wrapped to the width of their columns can be merged into columns: no line is too wide, whatever the text. *)
From Verif Require Import PyStrProof LinesModel WordsModel WordsSpec WordsProps MergeModel MergeSpec MergeProof2 MergeProps.

Lemma split1_app_any p (a b : str) : exists pre la hb tb, split1 p a = pre ++ [la] /\ split1 p b = hb :: tb /\ split1 p (a ++ b) = pre ++ (la ++ hb) :: tb.
Proof.
  induction a as [|c a (pre & la & hb & tb & A & B & AB)].
  - destruct (split1 p b) as [|hb tb] eqn:E; [exfalso; eapply split1_nonnil; exact E|]. exists [], [], hb, tb. now rewrite <- E.
  - cbn [app split1]. rewrite A, AB. destruct (p c).
    + exists ([] :: pre), la, hb, tb. auto.
    + destruct pre as [|x pre]; cbn [app].
      * exists [], (c :: la), hb, tb. auto.
      * exists ((c :: x) :: pre), la, hb, tb. auto.
Qed.
(** the lines of a prefix are prefixes of lines *)
Lemma split1_prefix p (a b : str) line : In line (split1 p a) -> exists t, In (line ++ t) (split1 p (a ++ b)).
Proof.
  destruct (split1_app_any p a b) as (pre & la & hb & tb & A & B & AB). rewrite A, AB. intros I. apply in_app_or in I. destruct I as [I|[<-|[]]].
  - exists []. rewrite app_nil_r. apply in_or_app. now left.
  - exists hb. apply in_or_app. right. now left.
Qed.
Lemma lstrip_suffix is_bytes s : exists t, s = t ++ lstrip is_bytes s.
Proof. induction s as [|c s (t & E)]; [now exists []|]. cbn [lstrip]. destruct (white is_bytes c); [exists (c :: t); cbn; now rewrite <- E|now exists []]. Qed.
Lemma rstrip_prefix is_bytes s : exists t, s = rstrip is_bytes s ++ t.
Proof. destruct (lstrip_suffix is_bytes (rev s)) as (t & E). exists (rev t). unfold rstrip. rewrite <- rev_app_distr, <- E. now rewrite rev_involutive. Qed.

(** the words of a column: text without line breaks, or line breaks only, none longer than the column is wide *)
Definition column_word is_bytes (width : nat) (w : str) : Prop :=
  length w <= width /\ (~ In 10%N w \/ (w <> [] /\ forall c, In c w -> c = 10%N)) /\ (isspace is_bytes w = true -> In 10%N w).
(** Each column is a list of words, the margin they are wrapped to, and the width of the column, which is not smaller.  Then merge_columns does not
    raise, even with overflow_strategy RAISE, and row r of the result shows line r of every column. *)
Theorem C128_wrapped_columns is_bytes before after sep strategy two_spaces (cols : list (list str * Z * nat)) (texts : list str) :
  strategy <> INVALID -> cols <> [] ->
  Forall (fun '(words, margin, width) => (margin <= Z.of_nat width)%Z /\ Forall (column_word is_bytes width) words) cols ->
  Forall2 (fun '(words, margin, width) text => wrap_words is_bytes words margin two_spaces = Ok text) cols texts ->
  let columns := combine texts (map snd cols) in
  merge_columns is_bytes before after columns (Some sep) strategy =
  Ok (text_of is_bytes sep (fun r => map (fun c => ljust (snd c) (line is_bytes c r)) columns) (list_max (map (height is_bytes) columns))).
Proof.
  intros ST NE FC F2 columns. apply C80_columns_exact; auto.
  - unfold columns. destruct F2; [congruence|discriminate].
  - unfold columns. clear columns NE ST. induction F2 as [|[[words margin] width] text cols texts W F2 IH]; [constructor|]. inversion FC as [|? ? H0 FC']; subst. destruct H0 as (M & FW). cbn [map snd combine]. constructor; [|apply IH; exact FC'].
    intros (l & I & L). cbn [fst snd] in *. unfold text_lines in I. destruct (rstrip_prefix is_bytes text) as (t & E).
    apply split1_prefix with (b := t) in I. destruct I as (t' & I). rewrite <- E in I.
    assert (LL : length l <= width).
    { rewrite Forall_forall in FW. destruct (C45_margin_partial is_bytes words margin two_spaces text) with (line := l ++ t') as [H|[H|H]]; auto.
      - intros w Iw. destruct (FW w Iw) as (_ & H & _). exact H.
      - intros w Iw. destruct (FW w Iw) as (_ & _ & H). exact H.
      - rewrite app_length in H. lia.
      - apply app_eq_nil in H. destruct H as (-> & _). cbn. lia.
      - destruct (FW _ H) as (H1 & _). rewrite app_length in H1. lia. }
    destruct (rstrip_prefix is_bytes l) as (t2 & E2). apply (f_equal (@length _)) in E2. rewrite app_length in E2. lia.
Qed.
Print Assumptions C128_wrapped_columns.

(** Two columns of width 8 and 6 *)
Example C128_example : let ws1 := [u "The"; u "cat"; u "sat."; u "On"; u "mats."] in let ws2 := [u "A"; u "dog"; u "ran."; [10; 10]%N; u "Home"] in
  wrap_words false ws1 8 true = Ok (u "The cat" ++ [10]%N ++ u "sat.  On" ++ [10]%N ++ u "mats.") /\
  wrap_words false ws2 5 true = Ok (u "A dog" ++ [10]%N ++ u "ran." ++ [10; 10]%N ++ u "Home") /\
  merge_columns false 0 0 [(u "The cat" ++ [10]%N ++ u "sat.  On" ++ [10]%N ++ u "mats.", 8); (u "A dog" ++ [10]%N ++ u "ran." ++ [10; 10]%N ++ u "Home", 6)] (Some (u "|")) RAISE =
  Ok (u "The cat |A dog" ++ [10]%N ++ u "sat.  On|ran." ++ [10]%N ++ u "mats.   |" ++ [10]%N ++ u "        |Home") /\
  Forall (column_word false 8) ws1 /\ Forall (column_word false 6) ws2.
Proof.
  cbv zeta. split; [vm_compute; reflexivity|]. split; [vm_compute; reflexivity|]. split; [vm_compute; reflexivity|].
  split; repeat (apply Forall_cons; [split; [vm_compute; lia|split; [first [left; vm_compute; intuition discriminate|right; split; [discriminate|intros c [<-|[<-|[]]]; reflexivity]]|vm_compute; first [discriminate|auto]]]|]); apply Forall_nil.
Qed.
