(** str and bytes: the classes of characters, and the functions with separators (C135). *)
From Verif Require Import KindSpec SplitModel SplitSpec SplitProof SplitProof2 SplitProof3 PyStrProof KindProof DelimModel LinesModel ConstModel.

Lemma below128 (P : chr -> bool) : forallb P (map N.of_nat (seq 0 128)) = true -> forall c, (c < 128)%N -> P c = true.
Proof.
  intros H c L. rewrite forallb_forall in H. apply H. apply in_map_iff. exists (N.to_nat c). split; [apply N2Nat.id|]. apply in_seq. split; [apply Nat.le_0_l|]. cbn [Nat.add].
  change 128 with (N.to_nat 128). lia.
Qed.
Definition space_okb (c : chr) : bool := ((c <? 128) && negb ((28 <=? c) && (c <=? 31)))%N.
Definition break_okb (c : chr) : bool := ((c <? 128) && negb (existsb (N.eqb c) [11; 12; 28; 29; 30]))%N.
Lemma space_okb_iff c : space_okb c = true <-> ordinary_space c.
Proof. unfold space_okb, ordinary_space, ascii. rewrite andb_true_iff, negb_true_iff, N.ltb_lt, andb_false_iff, !N.leb_gt. lia. Qed.
Lemma break_okb_iff c : break_okb c = true <-> ordinary_break c.
Proof.
  unfold break_okb, ordinary_break, ascii. rewrite andb_true_iff, negb_true_iff, N.ltb_lt. rewrite <- not_true_iff_false, existsb_exists. split; intros [A B]; split; auto; intros C; apply B.
  - exists c. split; auto. apply N.eqb_refl.
  - destruct C as (x & I' & E). apply N.eqb_eq in E. now subst x.
Qed.
Lemma white_agree c : ordinary_space c -> white true c = white false c.
Proof.
  intros H. apply space_okb_iff in H. assert (L : (c < 128)%N) by (unfold space_okb in H; apply andb_true_iff in H as [H _]; now apply N.ltb_lt).
  pose proof (below128 (fun c => negb (space_okb c) || Bool.eqb (white true c) (white false c)) ltac:(vm_compute; reflexivity) c L) as Q. cbn beta in Q. rewrite H in Q. cbn in Q. now apply eqb_prop in Q.
Qed.
Lemma linebreak_agree c : ordinary_break c -> is_linebreak true c = is_linebreak false c.
Proof.
  intros H. apply break_okb_iff in H. assert (L : (c < 128)%N) by (unfold break_okb in H; apply andb_true_iff in H as [H _]; now apply N.ltb_lt).
  pose proof (below128 (fun c => negb (break_okb c) || Bool.eqb (is_linebreak true c) (is_linebreak false c)) ltac:(vm_compute; reflexivity) c L) as Q. cbn beta in Q. rewrite H in Q. cbn in Q. now apply eqb_prop in Q.
Qed.
Lemma white_agree_b b b' c : ordinary_space c -> white b c = white b' c.
Proof. intros H. destruct b, b'; auto; [|symmetry]; now apply white_agree. Qed.
Lemma linebreak_agree_b b b' c : ordinary_break c -> is_linebreak b c = is_linebreak b' c.
Proof. intros H. destruct b, b'; auto; [|symmetry]; now apply linebreak_agree. Qed.

(** lists of separators that differ only in strings with other characters *)
Definition agree_on (ok : chr -> bool) (a b : list str) : Prop := forall w, Forall (fun c => ok c = true) w -> (In w a <-> In w b).
Lemma agree_by ok a b : forallb (fun w => negb (forallb ok w) || existsb (str_eqb w) b) a = true -> forallb (fun w => negb (forallb ok w) || existsb (str_eqb w) a) b = true -> agree_on ok a b.
Proof.
  assert (H : forall a b, forallb (fun w => negb (forallb ok w) || existsb (str_eqb w) b) a = true -> forall w, Forall (fun c => ok c = true) w -> In w a -> In w b).
  { clear. intros a b H w F I'. rewrite forallb_forall in H. specialize (H w I'). assert (forallb ok w = true) as E by (apply forallb_forall; now apply Forall_forall). rewrite E in H. cbn in H.
    apply existsb_exists in H as (x & Ix & Q). apply str_eqb_eq in Q. now subst x. }
  intros A B w F. split; eapply H; eauto.
Qed.
Lemma agree_alike ok a b s : Forall (fun c => ok c = true) s -> agree_on ok a b -> alike_in s a b.
Proof. intros F H w (x & y & ->). apply H. apply Forall_app in F as [_ F]. now apply Forall_app in F as [F _]. Qed.
Lemma agree_sym ok a b : agree_on ok a b -> agree_on ok b a.
Proof. intros H w F. symmetry. now apply H. Qed.
Lemma agree_app ok a a' b b' : agree_on ok a a' -> agree_on ok b b' -> agree_on ok (a ++ b) (a' ++ b').
Proof. intros H G w F. now rewrite !in_app_iff, (H w F), (G w F). Qed.
Lemma agree_refl ok a : agree_on ok a a. Proof. intros w F. reflexivity. Qed.
Lemma whitespace_agree : agree_on space_okb str_whitespace bytes_whitespace.
Proof. apply agree_by; vm_compute; reflexivity. Qed.
Lemma linebreaks_agree : agree_on break_okb str_linebreaks bytes_linebreaks.
Proof. apply agree_by; vm_compute; reflexivity. Qed.
Lemma newlines_agree : agree_on break_okb str_linebreaks_without_crlf bytes_linebreaks_without_crlf.
Proof. apply agree_by; vm_compute; reflexivity. Qed.
Lemma nonempty_by (a : list str) : existsb is_nil a = false -> nonempty a.
Proof. intros H. apply Forall_forall. intros w I' ->. apply not_true_iff_false in H. apply H. apply existsb_exists. now exists []. Qed.
Lemma by_kind (P : kind -> Prop) : P KStr -> P KBytes -> forall k, P k. Proof. intros A B []; auto. Qed.

(** ---- the types of the arguments ---- *)
Lemma swap_swap k : swap (swap k) = k. Proof. now destruct k. Qed.
Lemma kind_eqb_swap a b : kind_eqb (swap a) (swap b) = kind_eqb a b. Proof. now destruct a, b. Qed.
Lemma is_nil_map {A B} (f : A -> B) l : is_nil (map f l) = is_nil l. Proof. now destruct l. Qed.
Lemma truth_swap o : truth (swap_obj o) = truth o.
Proof. destruct o; cbn; auto. now rewrite is_nil_map. Qed.
Lemma check_each_swap k l : check_each (swap k) (map swap_obj l) = check_each k l.
Proof. induction l as [|[k' c v| | | |] l IH]; cbn; auto. now rewrite kind_eqb_swap, IH. Qed.
Lemma check_types_swap k l : check_types (swap k) (map swap_obj l) = check_types k l.
Proof. induction l as [|[k' c v| | | |] l IH]; cbn; auto. now rewrite kind_eqb_swap, IH. Qed.
Lemma strip_separators_swap k o : strip_separators (swap k) (swap_obj o) = strip_separators k o.
Proof.
  destruct o as [k' c v| |l|l|b]; cbn; auto.
  - now rewrite kind_eqb_swap.
  - rewrite is_nil_map. destruct (is_nil l); cbn; auto. apply check_each_swap.
  - apply check_each_swap.
Qed.
Lemma strip_with_swap k cls v seps left right : strip_with (swap k) cls v seps left right = rmap swap_obj (strip_with k cls v seps left right).
Proof. unfold strip_with. destruct (negb (left || right)); auto. destruct seps; auto. destruct (multistrip v (s :: seps) left right); reflexivity. Qed.
Lemma strip_with_text k cls v seps left right o : strip_with k cls v seps left right = Ok o -> exists cls' v', o = OText k cls' v'.
Proof. unfold strip_with. destruct (negb (left || right)); [intros [= <-]; eauto|]. destruct seps; [intros [= <-]; eauto|]. destruct (multistrip v (s :: seps) left right); [intros [= <-]; eauto|discriminate]. Qed.
Lemma split_separators_swap k o : o <> ONone -> split_separators (swap k) (swap_obj o) = split_separators k o.
Proof.
  intros N. destruct o as [k' c v| |l|l|b]; cbn; auto; try congruence.
  - now rewrite kind_eqb_swap.
  - rewrite is_nil_map. destruct (is_nil l); cbn; auto. now rewrite check_types_swap.
  - now rewrite check_types_swap.
Qed.
Lemma typed_swap k i : typed (swap k) i = swap_item (typed k i).
Proof. now destruct i. Qed.
Lemma yields_swap k cls v keep m l : yields (swap k) cls v keep m l = map swap_item (yields k cls v keep m l).
Proof.
  unfold yields. destruct m as [[|p|p]|]; [destruct keep; reflexivity|..]; rewrite map_map; apply map_ext; intros; apply typed_swap.
Qed.
(** what multisplit does once it knows the separators *)
Definition split_with (k : kind) (cls : option nat) (v : str) (seps : list str) (keep : keep_mode) (maxsplit : option Z) (reverse separate : bool) (strip : strip_mode) : result (list oitem) :=
  let re_keep := match keep with KeepFalse => false | _ => true end in
  match strip with
  | StripFalse => Ok (yields k cls v keep maxsplit (gen v seps keep maxsplit reverse separate strip re_keep))
  | _ =>
      let all := match maxsplit with Some m => (m =? -1)%Z | None => false end in
      let '(strip, go_left, go_right, re_keep) :=
        match strip with
        | Progressive => if all then (StripTrue, true, true, re_keep) else (Progressive, negb reverse, reverse, true)
        | StripRight => (StripRight, false, true, re_keep)
        | StripLeft => (StripLeft, true, false, re_keep)
        | _ => (strip, true, true, re_keep)
        end in
      if existsb is_nil seps then Err ValueError
      else rbind (strip_with k cls v seps go_left go_right) (fun o =>
        match o with
        | OText _ cls v => let maxsplit := if is_nil v then Some 0%Z else maxsplit in
                           Ok (yields k cls v keep maxsplit (gen v seps keep maxsplit reverse separate strip re_keep))
        | _ => Err TypeError
        end)
  end.
Lemma multisplit_with k cls v o keep m reverse separate strip :
  multisplit_py k cls v o keep m reverse separate strip = rbind (split_separators k o) (fun seps => split_with k cls v seps keep m reverse separate strip).
Proof. reflexivity. Qed.
Lemma split_with_swap k cls v seps keep m reverse separate strip :
  split_with (swap k) cls v seps keep m reverse separate strip = rmap (map swap_item) (split_with k cls v seps keep m reverse separate strip).
Proof.
  unfold split_with.
  assert (G : forall sm gl gr rk, (if existsb is_nil seps then Err ValueError
      else rbind (strip_with (swap k) cls v seps gl gr) (fun o =>
        match o with OText _ cls v => Ok (yields (swap k) cls v keep (if is_nil v then Some 0%Z else m) (gen v seps keep (if is_nil v then Some 0%Z else m) reverse separate sm rk)) | _ => Err TypeError end)) =
    rmap (map swap_item) (if existsb is_nil seps then Err ValueError
      else rbind (strip_with k cls v seps gl gr) (fun o =>
        match o with OText _ cls v => Ok (yields k cls v keep (if is_nil v then Some 0%Z else m) (gen v seps keep (if is_nil v then Some 0%Z else m) reverse separate sm rk)) | _ => Err TypeError end))).
  { intros. destruct (existsb is_nil seps); auto. rewrite strip_with_swap. destruct (strip_with k cls v seps gl gr) as [o|e]; auto. cbn [rbind rmap].
    destruct o; cbn [swap_obj]; auto. cbn [rmap]. now rewrite yields_swap. }
  destruct strip; try apply G; [cbn [rmap]; now rewrite yields_swap|].
  destruct (match m with Some m => (m =? -1)%Z | None => false end); apply G.
Qed.
Lemma strip_with_alike k cls v a b left right : a <> [] -> b <> [] -> nonempty a -> nonempty b -> alike_in v a b -> strip_with k cls v a left right = strip_with k cls v b left right.
Proof.
  intros A B Na Nb H. unfold strip_with. destruct (negb (left || right)); auto. destruct a; [congruence|]. destruct b; [congruence|]. now rewrite (multistrip_alike _ _ v left right A B Na Nb H).
Qed.
Lemma strip_with_sub k cls v a left right o : a <> [] -> nonempty a -> strip_with k cls v a left right = Ok o -> exists cls' v' x y, o = OText k cls' v' /\ v = x ++ v' ++ y.
Proof.
  intros A Na. unfold strip_with. destruct (negb (left || right)); [intros [= <-]; exists cls, v, [], []; now rewrite app_nil_r|]. destruct a as [|w a]; [congruence|].
  destruct (multistrip v (w :: a) left right) as [r|] eqn:E; [|discriminate]. cbn. intros [= <-]. apply multistrip_sub in E as (x & y & E); auto. eauto 6.
Qed.
Lemma split_with_alike k cls v a b keep m reverse separate strip : a <> [] -> b <> [] -> nonempty a -> nonempty b -> alike_in v a b ->
  split_with k cls v a keep m reverse separate strip = split_with k cls v b keep m reverse separate strip.
Proof.
  intros A B Na Nb H. unfold split_with.
  assert (forall x, nonempty x -> existsb is_nil x = false) as NE.
  { intros x Nx. apply not_true_iff_false. intros E. apply existsb_exists in E as (w & I' & E). destruct w; [|discriminate]. unfold nonempty in Nx. rewrite Forall_forall in Nx. now apply (Nx [] I'). }
  assert (GG : forall v m st rk, alike_in v a b -> gen v a keep m reverse separate st rk = gen v b keep m reverse separate st rk).
  { intros. unfold gen. rewrite (NE a Na), (NE b Nb). destruct a; [congruence|]. destruct b; [congruence|]. now apply gen_alike. }
  rewrite (NE a Na), (NE b Nb).
  assert (G : forall sm gl gr rk, rbind (strip_with k cls v a gl gr) (fun o =>
        match o with OText _ cls v => Ok (yields k cls v keep (if is_nil v then Some 0%Z else m) (gen v a keep (if is_nil v then Some 0%Z else m) reverse separate sm rk)) | _ => Err TypeError end) =
    rbind (strip_with k cls v b gl gr) (fun o =>
        match o with OText _ cls v => Ok (yields k cls v keep (if is_nil v then Some 0%Z else m) (gen v b keep (if is_nil v then Some 0%Z else m) reverse separate sm rk)) | _ => Err TypeError end)).
  { intros. rewrite <- (strip_with_alike k cls v a b) by auto. destruct (strip_with k cls v a gl gr) as [o|e] eqn:E; auto. apply strip_with_sub in E as (c' & v' & x & y & -> & E); auto. cbn [rbind].
    rewrite GG; auto. rewrite E in H. now apply alike_sub in H. }
  destruct strip; try apply G; [now rewrite GG|]. destruct (match m with Some m => (m =? -1)%Z | None => false end); apply G.
Qed.
