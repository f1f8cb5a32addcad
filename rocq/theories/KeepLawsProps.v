(** C150: the four values of keep tell the same thing in different ways. *)
From Verif Require Import PyBase PyStr Regex PyBaseProof PyStrProof RegexProof SplitModel SplitSpec SplitSpec2 SplitSpec4 SplitProof SplitProof2 SplitProof3 SplitProof4 SplitProps.

Lemma gen_keep s seps maxsplit (reverse separate : bool) strip : exists l y, forall keep,
  multisplit_gen s seps keep maxsplit reverse separate strip (match strip, keep with Progressive, _ => true | _, KeepFalse => false | _, _ => true end) = present keep l y.
Proof.
  unfold multisplit_gen. set (m := match maxsplit with None => (-1)%Z | Some m => m end). destruct (m =? 0)%Z.
  - exists [], s. intros []; reflexivity.
  - set (p := re_split _ _ _). set (cut := match strip with Progressive => (Z.of_nat (last_non_empty (with_seps p) + 2) <? 1 + 2 * m)%Z | _ => false end).
    set (q := if cut then strip_end (fst p) (snd p) else p).
    assert (Q : alternating (fst q) (snd q) = if cut then firstn (last_non_empty (with_seps p) + 1) (with_seps p) else with_seps p).
    { unfold q. destruct cut; [|reflexivity]. change (with_seps p) with (alternating (fst p) (snd p)). rewrite last_strip_end. destruct (strip_end_firstn (fst p) (snd p)) as [F _]. now rewrite F. }
    destruct (mirror_exists (fst q) (snd q)) as (l' & x' & M1 & M2).
    exists (if reverse then l' else fst q), (if reverse then x' else snd q). intros keep.
    assert (L : forall (k : keep_mode), (if reverse then rev (map (@rev chr) (match keep with KeepFalse => map fst (fst q) ++ [snd q] | _ => alternating (fst q) (snd q) end))
        else match keep with KeepFalse => map fst (fst q) ++ [snd q] | _ => alternating (fst q) (snd q) end) =
      match keep with KeepFalse => map fst (if reverse then l' else fst q) ++ [if reverse then x' else snd q]
      | _ => alternating (if reverse then l' else fst q) (if reverse then x' else snd q) end) by (intros _; destruct reverse, keep; auto).
    etransitivity; [|exact (present_alternating keep _ _ _ (L keep))]. cbn zeta. clear L M1 M2.
    assert (E : match strip with
             | Progressive => let l := if (Z.of_nat (last_non_empty (with_seps p) + 2) <? 1 + 2 * m)%Z then firstn (last_non_empty (with_seps p) + 1) (with_seps p) else with_seps p in
                 match keep with KeepFalse => evens l | _ => l end
             | _ => if (match keep with KeepFalse => false | _ => true end) then with_seps p else without_seps p end
             = match keep with KeepFalse => map fst (fst q) ++ [snd q] | _ => alternating (fst q) (snd q) end).
    { destruct strip; try (destruct keep; reflexivity). fold cut. cbn zeta. rewrite <- Q. destruct keep; auto. apply evens_alternating. }
    destruct strip, keep; cbv zeta beta iota in E |- *; rewrite <- E; reflexivity.
Qed.

(** For any arguments: either all four calls raise the same exception, or there are pieces of
    text, each but the last with the separator after it, and keep says how they are shown: without
    separators, with the separator at the end, as strings that alternate, or as pairs, the last one
    with an empty separator. *)
Theorem C150_keep_modes : forall s separators maxsplit (reverse separate : bool) strip,
  (exists e, forall keep, multisplit s separators keep maxsplit reverse separate strip = Err e) \/
  (exists (pieces : list (str * str)) (last : str),
    multisplit s separators KeepFalse maxsplit reverse separate strip = Ok (map Str (map fst pieces ++ [last])) /\
    multisplit s separators KeepTrue maxsplit reverse separate strip = Ok (map Str (map (fun p => fst p ++ snd p) pieces ++ [last])) /\
    multisplit s separators Alternating maxsplit reverse separate strip = Ok (map Str (flat_map (fun p => [fst p; snd p]) pieces ++ [last])) /\
    multisplit s separators AsPairs maxsplit reverse separate strip = Ok (map (fun p => Two (fst p) (snd p)) pieces ++ [Two last []])).
Proof.
  intros s o maxsplit reverse separate strip.
  assert (K : (exists e, forall keep, multisplit s o keep maxsplit reverse separate strip = Err e) \/
    exists l y, forall keep, multisplit s o keep maxsplit reverse separate strip = Ok (present keep l y)).
  { unfold multisplit. set (seps := match o with None => str_whitespace | Some l => l end). destruct (is_nil seps); [left; eexists; intros keep; reflexivity|].
    assert (G : forall t mx st, exists l y, forall keep, Ok (multisplit_gen t seps keep mx reverse separate st
      (match st, keep with Progressive, _ => true | _, KeepFalse => false | _, _ => true end)) = Ok (present keep l y)).
    { intros t mx st. destruct (gen_keep t seps mx reverse separate st) as (l & y & H). exists l, y. intros keep. f_equal. apply H. }
    destruct strip; [right; exact (G s maxsplit StripFalse)| | | |destruct (match maxsplit with Some m => (m =? -1)%Z | None => false end)];
      cbv beta iota zeta; (destruct (multistrip s seps _ _) as [t|e]; [right|left; exists e; intros keep; reflexivity]).
    - exact (G t (if is_nil t then Some 0%Z else maxsplit) StripTrue).
    - exact (G t (if is_nil t then Some 0%Z else maxsplit) StripLeft).
    - exact (G t (if is_nil t then Some 0%Z else maxsplit) StripRight).
    - exact (G t (if is_nil t then Some 0%Z else maxsplit) StripTrue).
    - exact (G t (if is_nil t then Some 0%Z else maxsplit) Progressive). }
  destruct K as [K|(l & y & H)]; [left; exact K|right]. exists l, y. rewrite !H. cbn [present]. split; [reflexivity|]. split; [reflexivity|]. split; [reflexivity|]. now rewrite map_app.
Qed.
Print Assumptions C150_keep_modes.
(** Without strip the only error is that there are no separators. *)
Theorem C150_no_error : forall s separators keep maxsplit reverse separate, separators <> Some [] ->
  exists l, multisplit s separators keep maxsplit reverse separate StripFalse = Ok l.
Proof. intros s [[|w l]|] keep maxsplit reverse separate N; [congruence| |]; unfold multisplit; cbn [is_nil]; eexists; reflexivity. Qed.
Print Assumptions C150_no_error.
Example C150_witness :
  multisplit (u "a-b+c") (Some [u "-"; u "+"]) KeepFalse (Some 1%Z) true false StripFalse = Ok [Str (u "a-b"); Str (u "c")] /\
  multisplit (u "a-b+c") (Some [u "-"; u "+"]) KeepTrue (Some 1%Z) true false StripFalse = Ok [Str (u "a-b+"); Str (u "c")] /\
  multisplit (u "a-b+c") (Some [u "-"; u "+"]) Alternating (Some 1%Z) true false StripFalse = Ok [Str (u "a-b"); Str (u "+"); Str (u "c")] /\
  multisplit (u "a-b+c") (Some [u "-"; u "+"]) AsPairs (Some 1%Z) true false StripFalse = Ok [Two (u "a-b") (u "+"); Two (u "c") []].
Proof. repeat split; vm_compute; reflexivity. Qed.
