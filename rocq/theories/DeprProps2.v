(** C93: the deprecated lines_strip_comments. *)
From Verif Require Import DeprModel DeprSpec DeprProof DeprProof2 DeprProps DeprProof3 PyStrProof DelimProof LinesProof LinesProof3 LinesSpec LinesSpec2 LinesProps2 SplitSpec SplitProof.

(** Lines are cut at the first marker outside quotes, and then stripped at the right, up to a
    line whose quoted strings cannot be found (see C92). *)
Theorem C93_lines_strip_comments_partial : forall is_bytes markers quotes backslash do_rstrip triple_quotes l up,
  markers <> [] -> (forall m, In m markers -> m <> []) -> (forall c, In [c] quotes -> white is_bytes c = false) -> Forall has_its_end l ->
  exists l' e, lines_strip_comments_old is_bytes markers quotes backslash do_rstrip triple_quotes (l, up) = Ok (l', e) /\
    old_comments_stripped markers (white is_bytes) do_rstrip
      (fun line segs e => if is_nil quotes then segs = [(false, line)] /\ e = None
                          else quoted_segments (fun c => In [c] quotes) triple_quotes (fun c => backslash = [c]) line segs e) up l l' e.
Proof.
  intros is_bytes markers quotes backslash rs tq l up NM NE NW W. assert (NE' : nonempty markers) by (apply Forall_forall; exact NE).
  unfold lines_strip_comments_old. destruct markers as [|m markers]; [congruence|]. cbn [is_nil fst snd]. remember (m :: markers) as ms eqn:Em. clear Em NM m markers.
  destruct (for_each (strip_comment_old is_bytes ms quotes backslash rs tq) l up) as [l' e] eqn:E. exists l', e. split; auto.
  revert l' e E. induction W as [|p l Wp Wl IH]; intros l' e E; cbn [for_each] in E.
  - injection E as <- <-. constructor.
  - pose proof (strip_comment_ok is_bytes ms quotes backslash rs tq NE' NW p Wp) as S. destruct (strip_comment_old is_bytes ms quotes backslash rs tq p) as [[q|]|x].
    + destruct (for_each _ l up) as [l1 e1]. unfold yield_ in E. cbn in E. injection E as <- <-. apply ocs_line; auto.
    + contradiction.
    + injection E as <- <-. destruct S as (segs & S1 & S2). eapply ocs_fails; eauto.
Qed.
Print Assumptions C93_lines_strip_comments_partial.
Theorem C93_no_markers : forall is_bytes quotes backslash do_rstrip triple_quotes li, lines_strip_comments_old is_bytes [] quotes backslash do_rstrip triple_quotes li = Err ValueError.
Proof. reflexivity. Qed.
Print Assumptions C93_no_markers.
(** It breaks on a comment that ends with a quote mark, although no quoted string comes before the comment. *)
Theorem C93_comment_with_quote_refuted :
  lines_strip_comments_old false [u "#"] [[34%N]; u "'"] (u "\") true true ([new_info 1 1 (u "x # the cats'", [])], None) = Ok ([], Some RuntimeError) /\
  sep_free [u "#"; u "'"; [34%N]] (u "x ").
Proof.
  split; [vm_compute; reflexivity|]. intros i (w & t & I & E). cbn in I. destruct i as [|[|[|i]]]; cbn in E; destruct I as [<-|[<-|[<-|[]]]]; try discriminate; destruct i; discriminate.
Qed.
Print Assumptions C93_comment_with_quote_refuted.
Example C93_witness : exists l', Forall has_its_end [new_info 1 1 (u "x = '#'  # one", [10%N]); new_info 1 2 (u "# two", [])] /\
  lines_strip_comments_old false [u "#"] [[34%N]; u "'"] (u "\") true true ([new_info 1 1 (u "x = '#'  # one", [10%N]); new_info 1 2 (u "# two", [])], None) = Ok (l', None) /\
  map (fun q => (snd q, i_trailing (fst q))) l' = [(u "x = '#'", u "  # one"); ([], u "# two")] /\ (forall c, In [c] [[34%N]; u "'"] -> white false c = false).
Proof.
  eexists. split; [constructor; [exists (u "x = '#'  # one"); reflexivity|constructor; [exists (u "# two"); reflexivity|constructor]]|]. split; [vm_compute; reflexivity|]. split; [reflexivity|].
  intros c [E|[E|[]]]; injection E as <-; reflexivity.
Qed.
