(** C141: the laws of combine_splits, and splitting by several sets of separators. *)
From Verif Require Import PyBase PyStr SplitModel SplitSpec SplitProps SplitSpec6 SplitProps6 CombineModel CombineSpec CombineProof CombineProps LawsProof.
Local Open Scope nat_scope.

(** every array joins to s *)
Notation arrays_of s arrays := (forall array, In array arrays -> concat array = s).
Notation without_empty := (filter (fun p : str => negb (is_nil p))).
Lemma without_empty_eq p : without_empty p = filter nonempty_str p.
Proof. induction p as [|[|c a] p IH]; cbn; auto. now rewrite IH. Qed.

(** Only the set of the places where the arrays split matters: neither the order of the arrays,
    nor how often a split is there, nor empty strings. *)
Theorem C141_same_places : forall s A B, arrays_of s A -> arrays_of s B ->
  (forall k, 0 < k < length s -> (exists array, In array A /\ cut array k) <-> (exists array, In array B /\ cut array k)) ->
  combine_splits s A = combine_splits s B.
Proof.
  intros s A B SA SB H. destruct (C48_combine s B SB) as (p & E & Ep & Fp & Cp). rewrite E. apply combine_is; auto.
  intros k K. rewrite Cp by auto. symmetry. auto.
Qed.
Print Assumptions C141_same_places.
Theorem C141_any_order : forall s A B, arrays_of s A -> (forall array, In array A <-> In array B) -> combine_splits s A = combine_splits s B.
Proof.
  intros s A B SA H. apply C141_same_places; auto; [intros a I; apply SA, H, I|].
  intros k _. split; intros (a & I & X); exists a; split; auto; now apply H.
Qed.
Print Assumptions C141_any_order.
(** No array: s itself.  One array: its strings, without the empty ones. *)
Theorem C141_none : forall s, combine_splits s [] = (match s with [] => [] | _ => [s] end, None).
Proof.
  intros s. apply combine_is; [intros a []| | |].
  - destruct s; cbn; auto. now rewrite app_nil_r. - destruct s; repeat constructor; discriminate.
  - intros k K. split; [|intros (a & [] & _)]. destruct s; [cbn in K; lia|]. rewrite cut_cons. intros [X|[X _]]; lia.
Qed.
Print Assumptions C141_none.
Theorem C141_one : forall array, combine_splits (concat array) [array] = (without_empty array, None).
Proof.
  intros a. rewrite without_empty_eq. apply combine_is; [intros x [<-|[]]; auto|apply concat_filter|apply filter_nonempty|].
  intros k K. rewrite cut_filter by lia. split; [intros X; exists a; split; auto; left; auto|intros (x & [<-|[]] & X); exact X].
Qed.
Print Assumptions C141_one.
(** What was combined can be combined with more: the result is that of combining all at once. *)
Theorem C141_nested : forall s A B, arrays_of s A -> arrays_of s B -> exists combined,
  combine_splits s A = (combined, None) /\ combine_splits s (combined :: B) = combine_splits s (A ++ B) /\ combine_splits s (B ++ [combined]) = combine_splits s (A ++ B).
Proof.
  intros s A B SA SB. destruct (C48_combine s A SA) as (p & E & Ep & Fp & Cp). exists p. split; auto.
  assert (G : combine_splits s (p :: B) = combine_splits s (A ++ B)).
  { apply C141_same_places; [intros x [<-|I]; auto|intros x I; apply in_app_iff in I; destruct I; auto|].
    intros k K. split.
    - intros (x & [<-|I] & X); [apply Cp in X; auto; destruct X as (y & J & X); exists y; split; auto; apply in_app_iff; auto|exists x; split; auto; apply in_app_iff; auto].
    - intros (x & I & X). apply in_app_iff in I. destruct I as [I|I]; [exists p; split; [left; auto|]; apply Cp; eauto|exists x; split; auto; right; auto]. }
  split; auto. rewrite <- G. apply C141_any_order; [intros x I; apply in_app_iff in I; destruct I as [I|[<-|[]]]; auto|].
  intros x. rewrite in_app_iff. cbn. tauto.
Qed.
Print Assumptions C141_nested.

(** The use the documentation recommends: splits made by multisplit with keep=True or
    ALTERNATING.  For separators of one character, splitting by several sets of separators,
    each from the left or from the right, and combining is splitting by all of them at once. *)
Theorem C141_multisplit : forall s keep (sets : list (list chr * bool)) (reverse : bool), keep = KeepTrue \/ keep = Alternating ->
  sets <> [] -> (forall set r, In (set, r) sets -> set <> []) ->
  exists arrays whole,
    Forall2 (fun x array => multisplit s (Some (map (fun c : chr => [c]) (fst x))) keep (Some (-1)%Z) (snd x) true StripFalse = Ok (map Str array)) sets arrays /\
    multisplit s (Some (map (fun c : chr => [c]) (concat (map fst sets)))) keep (Some (-1)%Z) reverse true StripFalse = Ok (map Str whole) /\
    combine_splits s arrays = (without_empty whole, None).
Proof.
  intros s keep sets reverse HK NE NE1.
  assert (V : forall S : list chr, S <> [] -> valid (Some (map (fun c : chr => [c]) S))).
  { intros S N. split; [destruct S; [congruence|discriminate]|]. apply Forall_forall. intros w I. apply in_map_iff in I. destruct I as (c & <- & _). discriminate. }
  assert (One : forall S r, S <> [] -> exists array, multisplit s (Some (map (fun c : chr => [c]) S)) keep (Some (-1)%Z) r true StripFalse = Ok (map Str array) /\
    concat array = s /\ forall k, 0 < k < length s -> (cut array k <-> if match keep with Alternating => true | _ => false end then at_sep S s (k - 1) \/ at_sep S s k else at_sep S s (k - 1))).
  { intros S r N.
    assert (E : multisplit s (Some (map (fun c : chr => [c]) S)) keep (Some (-1)%Z) r true StripFalse = multisplit s (Some (map (fun c : chr => [c]) S)) keep (Some (-1)%Z) false true StripFalse).
    { destruct r; auto. apply C131_direction; auto. apply C131_single_characters. apply Forall_forall. intros w I. cbn in I. apply in_map_iff in I. destruct I as (c & <- & _). cbn. lia. }
    destruct (C32_multisplit_is_the_split s (Some (map (fun c : chr => [c]) S)) keep (Some (-1)%Z) false true (V S N)) as (l & y & Sp & M).
    cbn [seps_of] in Sp. change (splits true (map (fun c : chr => [c]) S) None s l y) in Sp. destruct (splits_concat S None s l y Sp) as [C1 C2].
    destruct HK as [-> | ->].
    - exists (joined_pieces l y). split; [exact (eq_trans E M)|]. split; auto. intros k K. exact (proj1 (cuts_single S None s l y Sp eq_refl k K)).
    - exists (separate_pieces l y). split; [exact (eq_trans E M)|]. split; auto. intros k K. exact (proj2 (cuts_single S None s l y Sp eq_refl k K)). }
  assert (All : exists arrays, Forall2 (fun (x : list chr * bool) array => multisplit s (Some (map (fun c : chr => [c]) (fst x))) keep (Some (-1)%Z) (snd x) true StripFalse = Ok (map Str array)) sets arrays /\
    arrays_of s arrays /\ forall k, 0 < k < length s -> ((exists array, In array arrays /\ cut array k) <->
      if match keep with Alternating => true | _ => false end then at_sep (concat (map fst sets)) s (k - 1) \/ at_sep (concat (map fst sets)) s k else at_sep (concat (map fst sets)) s (k - 1))).
  { clear NE. induction sets as [|[S r] sets IH].
    - exists []. split; [constructor|]. split; [intros a []|]. intros k K. unfold at_sep. cbn. destruct keep; firstorder.
    - destruct (IH (fun S r I => NE1 S r (or_intror I))) as (arrays & F & SA & C). destruct (One S r (NE1 S r (or_introl eq_refl))) as (a & E & Ea & Ca).
      exists (a :: arrays). split; [constructor; auto|]. split; [intros x [<-|I]; auto|]. intros k K. cbn [map concat fst].
      assert (U : forall j, at_sep (S ++ concat (map fst sets)) s j <-> at_sep S s j \/ at_sep (concat (map fst sets)) s j).
      { intros j. unfold at_sep. split; [intros (c & X & I); apply in_app_iff in I; destruct I; eauto|intros [(c & X & I)|(c & X & I)]; exists c; split; auto; apply in_app_iff; auto]. }
      assert (D : (exists array, In array (a :: arrays) /\ cut array k) <-> cut a k \/ exists array, In array arrays /\ cut array k).
      { split; [intros (x & [<-|I] & X); eauto|intros [X|(x & I & X)]; [exists a|exists x]; split; cbn; auto]. }
      pose proof (Ca k K) as H1. pose proof (C k K) as H2. pose proof (U k) as U1. pose proof (U (k - 1)) as U2. clear U.
      etransitivity; [exact D|]. destruct keep; tauto. }
  destruct All as (arrays & F & SA & C). destruct (One (concat (map fst sets)) reverse) as (whole & E & Ew & Cw).
  { destruct sets as [|[S r] sets]; [congruence|]. pose proof (NE1 S r (or_introl eq_refl)). cbn. destruct S; [congruence|discriminate]. }
  exists arrays, whole. split; auto. split; auto. rewrite without_empty_eq.
  apply combine_is; auto; [now rewrite concat_filter|apply filter_nonempty|].
  intros k K. rewrite cut_filter by lia. rewrite (Cw k K), (C k K). tauto.
Qed.
Print Assumptions C141_multisplit.
(** Not so for longer separators: "ab" and "bc" overlap. *)
Theorem C141_overlap_refuted :
  multisplit (u "abcx") (Some [u "ab"]) KeepTrue (Some (-1)%Z) false true StripFalse = Ok (map Str [u "ab"; u "cx"]) /\
  multisplit (u "abcx") (Some [u "bc"]) KeepTrue (Some (-1)%Z) false true StripFalse = Ok (map Str [u "abc"; u "x"]) /\
  multisplit (u "abcx") (Some [u "ab"; u "bc"]) KeepTrue (Some (-1)%Z) false true StripFalse = Ok (map Str [u "ab"; u "cx"]) /\
  combine_splits (u "abcx") [[u "ab"; u "cx"]; [u "abc"; u "x"]] = ([u "ab"; u "c"; u "x"], None).
Proof. repeat split; vm_compute; reflexivity. Qed.
Print Assumptions C141_overlap_refuted.

Example C141_witness :
  multisplit (u "a,b;c,") (Some [u ","]) KeepTrue (Some (-1)%Z) false true StripFalse = Ok (map Str [u "a,"; u "b;c,"; []]) /\
  multisplit (u "a,b;c,") (Some [u ";"]) KeepTrue (Some (-1)%Z) true true StripFalse = Ok (map Str [u "a,b;"; u "c,"]) /\
  multisplit (u "a,b;c,") (Some [u ","; u ";"]) KeepTrue (Some (-1)%Z) false true StripFalse = Ok (map Str [u "a,"; u "b;"; u "c,"; []]) /\
  combine_splits (u "a,b;c,") [[u "a,"; u "b;c,"; []]; [u "a,b;"; u "c,"]] = ([u "a,"; u "b;"; u "c,"], None).
Proof. repeat split; vm_compute; reflexivity. Qed.
