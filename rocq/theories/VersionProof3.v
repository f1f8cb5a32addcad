(** str(v) parses back to a version equal to v. *)
From Verif Require Import VersionModel VersionSpec VersionProof VersionParse VersionProof2 PyStrProof RegexProof.

(** [takes r w rest g g']: facing w ++ rest, the first thing r tries that can lead to
    success is to match exactly w *)
Definition takes (r : re) (w rest : str) (g g' : groups) : Prop :=
  forall R (k : str -> groups -> option R) x, k rest g' = Some x -> rmatch r (w ++ rest) g k = Some x.
Definition fails (r : re) (s : str) : Prop := forall g s' g', ~ rel r s g s' g'.

Lemma takes_seq a b w1 w2 rest g g1 g2 : takes a w1 (w2 ++ rest) g g1 -> takes b w2 rest g1 g2 ->
  takes (Seq a b) (w1 ++ w2) rest g g2.
Proof. intros A B R k x K. rewrite <- app_assoc. cbn [rmatch]. apply A. apply B. exact K. Qed.
Lemma takes_chr p c rest g : p c = true -> takes (Chr p) [c] rest g g.
Proof. intros P R k x K. cbn. now rewrite P. Qed.
Lemma takes_altL a b w rest g g' : takes a w rest g g' -> takes (Alt a b) w rest g g'.
Proof. intros A R k x K. cbn [rmatch]. now rewrite (A R k x K). Qed.
Lemma takes_altR a b w rest g g' : fails a (w ++ rest) -> takes b w rest g g' -> takes (Alt a b) w rest g g'.
Proof.
  intros F B R k x K. cbn [rmatch]. rewrite (rmatch_none R a). { now apply B. }
  intros s' g'' H. exfalso. exact (F _ _ _ H).
Qed.
Lemma takes_eps rest g : takes Eps [] rest g g.
Proof. intros R k x K. exact K. Qed.
Lemma takes_skip a rest g : fails a rest -> takes (Opt a) [] rest g g.
Proof. intros F. apply takes_altR; auto. apply takes_eps. Qed.
Lemma takes_grp i a w rest g g1 : takes a w rest g g1 -> takes (Grp i a) w rest g ((i, w) :: g1).
Proof.
  intros A R k x K. cbn [rmatch]. apply A. rewrite app_length.
  replace (length w + length rest - length rest) with (length w) by lia.
  now rewrite firstn_app, Nat.sub_diag, firstn_all, app_nil_r.
Qed.
Definition not_first (p : chr -> bool) (s : str) : Prop := match s with c :: _ => p c = false | [] => True end.
Lemma takes_star p ds rest g : all_of p ds -> not_first p rest -> takes (Star (Chr p)) ds rest g g.
Proof. intros A N R k x K. now apply star_class. Qed.
Lemma takes_plus p ds rest g : ds <> [] -> all_of p ds -> not_first p rest -> takes (Plus (Chr p)) ds rest g g.
Proof. intros NE A N R k x K. now apply plus_class. Qed.
Lemma takes_chr_cons p c w rest r g g' : p c = true -> takes r w rest g g' -> takes (Seq (Chr p) r) (c :: w) rest g g'.
Proof. intros P T. apply (takes_seq (Chr p) r [c] w rest g g g'); auto. now apply takes_chr. Qed.
Lemma takes_lit w rest g : Forall (fun c => ci c c = true) w -> takes (lit w) w rest g g.
Proof.
  induction w as [|c w IH]; intros F; cbn; [apply takes_eps|]. inversion F; subst. apply takes_chr_cons; auto.
Qed.

(** blocks of p separated by single q characters *)
Fixpoint glue (c : chr) (l : list str) : str := match l with [] => [] | x :: t => c :: x ++ glue c t end.
Lemma join_glue c x l : join [c] (x :: l) = x ++ glue c l.
Proof.
  revert x. induction l as [|y l IH]; intros x; [cbn; now rewrite app_nil_r|].
  change (join [c] (x :: y :: l)) with (x ++ [c] ++ join [c] (y :: l)). rewrite IH. reflexivity.
Qed.
Lemma takes_blocks p q c l rest : q c = true -> p c = false -> (forall d, p d = true -> q d = false) ->
  Forall (block p) l -> not_first p rest ->
  (match rest with d :: t => q d = true -> not_first p t | [] => True end) -> forall g,
  takes (Star (Seq (Chr q) (Plus (Chr p)))) (glue c l) rest g g.
Proof.
  intros Qc Pc PQ F N N2 g R k x K. cbn [rmatch].
  match goal with |- ?L (length _) _ _ = _ => set (loop := L) end.
  assert (G : forall l n, Forall (block p) l -> length l <= n -> loop n (glue c l ++ rest) g = Some x).
  { clear F l. induction l as [|y l IH]; intros n F Hn.
    - cbn [glue app]. destruct n; [exact K|].
      change (loop (S n) rest g) with (match rmatch (Seq (Chr q) (Plus (Chr p))) rest g (fun s' g' => if length s' <? length rest then loop n s' g' else None) with Some y => Some y | None => k rest g end).
      rewrite rmatch_none; auto. intros s' g' H. exfalso. apply rel_seq in H. destruct H as (s1 & g1 & H1 & H2).
      apply rel_chr in H1. destruct H1 as (d & -> & Hd & ->). apply rel_plus_class in H2. destruct H2 as (ds & NE & -> & D & ->).
      specialize (N2 Hd). destruct ds as [|e ds]; [congruence|]. cbn in N2, D. rewrite N2 in D. discriminate.
    - inversion F as [|? ? [NE A] F']; subst. destruct n; [cbn in Hn; lia|].
      assert (T : takes (Seq (Chr q) (Plus (Chr p))) (c :: y) (glue c l ++ rest) g g).
      { apply takes_chr_cons; auto. apply takes_plus; auto. destruct l; cbn; auto. }
      change (loop (S n) (glue c (y :: l) ++ rest) g) with
        (match rmatch (Seq (Chr q) (Plus (Chr p))) (glue c (y :: l) ++ rest) g (fun s' g' => if length s' <? length (glue c (y :: l) ++ rest) then loop n s' g' else None)
         with Some y => Some y | None => k (glue c (y :: l) ++ rest) g end).
      assert (E : glue c (y :: l) ++ rest = (c :: y) ++ glue c l ++ rest) by (cbn; now rewrite <- app_assoc).
      assert (Q : length (glue c l ++ rest) <? length (glue c (y :: l) ++ rest) = true).
      { apply Nat.ltb_lt. rewrite E, (app_length (c :: y)). cbn. lia. }
      match goal with |- match rmatch _ _ _ ?kk with _ => _ end = _ => assert (TT : rmatch (Seq (Chr q) (Plus (Chr p))) (glue c (y :: l) ++ rest) g kk = Some x) end.
      { rewrite E at 1. apply T. rewrite Q. apply IH; auto. cbn in Hn. lia. }
      now rewrite TT. }
  apply G; auto. rewrite app_length. clear. induction l as [|y l IH]; cbn; [lia|]. rewrite app_length. lia.
Qed.

(** ---- the canonical text of a version ---- *)
Definition seg_ok (x : str) : Prop := x <> [] /\ all_of is_alnum x.
(** what parsing can produce *)
Record wf (v : version) : Prop := mkWf {
  wf_epoch : match v_epoch v with Some z => (0 <= z)%Z | None => True end;
  wf_rel_ne : v_release v <> [];
  wf_rel : nonnegs (v_release v);
  wf_clip : clip (v_release v) = v_release v;
  wf_serial : match v_serial v with Some z => (0 <= z)%Z | None => True end;
  wf_final : v_level v = Final -> v_serial v = None;
  wf_post : match v_post v with Some z => (0 <= z)%Z | None => True end;
  wf_dev : match v_dev v with Some z => (0 <= z)%Z | None => True end;
  wf_local : match v_local v with Some l => l <> [] /\ Forall seg_ok l | None => True end
}.
Lemma str_int_spec z : (0 <= z)%Z -> digits (str_int z) /\ int_of (str_int z) = z.
Proof.
  intros H. unfold str_int. destruct (z <? 0)%Z eqn:E; [apply Z.ltb_lt in E; lia|].
  destruct (dec_spec (Z.to_N z)) as (A & B & C). split; [split; auto|]. rewrite A. lia.
Qed.

(** fields of the version obtained by parsing the text *)
Definition norm (v : version) : version :=
  mkV (match v_epoch v with Some 0%Z => None | o => o end) (v_release v) (v_level v)
      (match v_serial v with Some 0%Z => None | o => o end) (v_post v) (v_dev v) (v_local v).
Lemma key_norm v : key (norm v) = key v.
Proof. unfold key, norm. cbn. destruct (v_epoch v) as [[]|], (v_serial v) as [[]|]; reflexivity. Qed.

Lemma digit_facts c : is_digit c = true -> is_space c = false /\ ci 118%N c = false /\ is_sep c = false /\ (c =? 33)%N = false /\ (c =? 46)%N = false.
Proof.
  unfold is_digit, between. intros H. apply andb_true_iff in H. destruct H as [H1 H2]. apply N.leb_le in H1, H2.
  assert (Q : In c [48;49;50;51;52;53;54;55;56;57]%N) by (cbn; lia).
  repeat (destruct Q as [<-|Q]; [repeat split|]). destruct Q.
Qed.
(** no match can start here *)
Ltac relfail H :=
  repeat match type of H with
  | rel (Seq _ _) _ _ _ _ => apply rel_seq in H; let s := fresh "s" in let g := fresh "g" in let H1 := fresh "H" in destruct H as (s & g & H1 & H); relfail H1
  | rel (Alt _ _) _ _ _ _ => apply rel_alt in H; destruct H as [H|H]; relfail H
  end.

(** digits followed by something else are matched whole by Grp i Digits *)
Lemma takes_num i z rest g : (0 <= z)%Z -> not_first is_digit rest -> takes (Grp i Digits) (str_int z) rest g ((i, str_int z) :: g).
Proof. intros H N. destruct (str_int_spec z H) as [[NE D] _]. apply takes_grp. apply takes_plus; auto. Qed.

(** what can follow the release, the pre-release, and so on *)
Definition local_str (o : option (list str)) : str := match o with Some (x :: l) => u "+" ++ join (u ".") (x :: l) | _ => [] end.
Definition dev_str (o : option Z) : str := match o with Some n => u ".dev" ++ str_int n | None => [] end.
Definition post_str (o : option Z) : str := match o with Some n => u ".post" ++ str_int n | None => [] end.
Definition serial_str (o : option Z) : str := if truthy o then opt_str o else [].
Definition epoch_str (o : option Z) : str := if truthy o then opt_str o ++ u "!" else [].
Lemma show_eq v : wf v -> show v = Ok (epoch_str (v_epoch v) ++ join (u ".") (map str_int (v_release v)) ++ level_str (v_level v)
    ++ serial_str (v_serial v) ++ post_str (v_post v) ++ dev_str (v_dev v) ++ local_str (v_local v)).
Proof.
  intros W. unfold show. destruct (v_level v) eqn:E; cbn [andb]; auto. now rewrite (wf_final _ W E).
Qed.

Lemma fails_first p r rest : (forall g s' g', rel r rest g s' g' -> exists c t, rest = c :: t /\ p c = true) -> not_first p rest -> fails r rest.
Proof. intros H N g s' g' R. destruct (H _ _ _ R) as (c & t & -> & P). cbn in N. congruence. Qed.
Lemma fails_seq a b s : fails a s -> fails (Seq a b) s.
Proof. intros F g s' g' H. apply rel_seq in H. destruct H as (s1 & g1 & H1 & _). exact (F _ _ _ H1). Qed.
Lemma fails_alt a b s : fails a s -> fails b s -> fails (Alt a b) s.
Proof. intros A B g s' g' H. apply rel_alt in H. destruct H as [H|H]; [exact (A _ _ _ H)|exact (B _ _ _ H)]. Qed.
Lemma fails_grp i a s : fails a s -> fails (Grp i a) s.
Proof. intros F g s' g' H. apply rel_grp in H. destruct H as (p & g1 & _ & H & _). exact (F _ _ _ H). Qed.
Lemma fails_chr p s : not_first p s -> fails (Chr p) s.
Proof. intros N g s' g' H. apply rel_chr in H. destruct H as (c & -> & P & _). cbn in N. congruence. Qed.
Lemma fails_num i s : not_first is_digit s -> fails (Grp i Digits) s.
Proof. intros N. apply fails_grp. unfold Digits, Plus. apply fails_seq. now apply fails_chr. Qed.
(** an optional separator, then r *)
Lemma fails_sep r s : fails r s -> (match s with c :: t => is_sep c = true -> fails r t | [] => True end) -> fails (Seq Sep r) s.
Proof.
  intros A B g s' g' H. apply rel_seq in H. destruct H as (s1 & g1 & H1 & H2). apply rel_sep in H1.
  destruct H1 as (x & -> & [->|(c & Hc & ->)] & ->); [exact (A _ _ _ H2)|]. exact (B Hc _ _ _ H2).
Qed.
(** one of some words *)
Fixpoint prefix_ci (w s : str) : bool :=
  match w, s with [] , _ => true | c :: w, d :: s => ci c d && prefix_ci w s | _ :: _, [] => false end.
Lemma fails_words l s : forallb (fun w => negb (prefix_ci w s)) l = true -> fails (alts l) s.
Proof.
  intros F g s' g' H. apply rel_alts in H. destruct H as (x & -> & (w & I & P) & ->).
  rewrite forallb_forall in F. specialize (F w I). apply negb_true_iff in F.
  assert (T : prefix_ci w (x ++ s') = true).
  { clear - P. induction P; cbn; auto. rewrite H, IHP. reflexivity. }
  congruence.
Qed.
Lemma takes_word l w rest g before after : l = before ++ w :: after -> Forall (fun c => ci c c = true) w ->
  forallb (fun x => negb (prefix_ci x (w ++ rest))) before = true -> takes (alts l) w rest g g.
Proof.
  intros -> F B. unfold alts. rewrite map_app. cbn [map].
  assert (G : forall rs r, takes r w rest g g -> takes (fold_left Alt rs r) w rest g g).
  { clear. induction rs as [|b rs IH]; intros r H; cbn; auto. apply IH. now apply takes_altL. }
  assert (G2 : forall bs r, fails r (w ++ rest) -> forallb (fun x => negb (prefix_ci x (w ++ rest))) bs = true ->
     takes (fold_left Alt (map lit bs ++ lit w :: map lit after) r) w rest g g).
  { induction bs as [|b bs IH]; intros r Hr Hb; cbn [map app fold_left].
    - apply G. apply takes_altR; auto. now apply takes_lit.
    - cbn in Hb. apply andb_true_iff in Hb. destruct Hb as [Hb1 Hb2]. apply IH; auto. apply fails_alt; auto.
      apply (fails_words [b]). cbn. now rewrite Hb1. }
  destruct before as [|b before]; cbn [map app].
  - apply G. now apply takes_lit.
  - cbn in B. apply andb_true_iff in B. destruct B as [B1 B2]. apply G2; auto. apply (fails_words [b]). cbn. now rewrite B1.
Qed.

(** the tail of the text *)
Definition ends_well (s : str) : Prop := s = [] \/ exists t, s = 43%N :: t.   (* nothing, or +local *)
Lemma local_ends o : ends_well (local_str o).
Proof. destruct o as [[|x l]|]; cbn; unfold ends_well; eauto. Qed.
Lemma ends_digit s : ends_well s -> not_first is_digit s. Proof. intros [->|[t ->]]; cbn; auto. Qed.
Lemma ends_sep s : ends_well s -> not_first is_sep s. Proof. intros [->|[t ->]]; cbn; auto. Qed.
Lemma takes_sep_skip rest g : not_first is_sep rest -> takes Sep [] rest g g.
Proof. intros N. apply takes_skip. now apply fails_chr. Qed.
Lemma takes_sep_dot rest g : takes Sep [46%N] rest g g.
Proof. apply takes_altL. now apply takes_chr. Qed.
Lemma not_first_num z rest : (0 <= z)%Z -> not_first is_sep (str_int z ++ rest).
Proof.
  intros H. destruct (str_int_spec z H) as [[NE D] _]. destruct (str_int z) as [|c t]; [congruence|]. unfold all_of in D. cbn in D |- *.
  apply andb_true_iff in D. apply digit_facts. apply D.
Qed.
Lemma takes_local o rest g : match o with Some l => l <> [] /\ Forall seg_ok l | None => True end -> rest = [] ->
  takes R_local (local_str o) rest g (cap 9 (option_map (join (u ".")) o) g).
Proof.
  intros W ->. unfold R_local. destruct o as [l|].
  - destruct W as [NE F]. destruct l as [|x l]; [congruence|]. cbn [local_str option_map cap].
    apply takes_altL. cbn [app u c1]. apply takes_chr_cons; [reflexivity|].
    apply takes_grp. inversion F as [|? ? [NEx Ax] F']; subst. change (u ".") with [46%N]. rewrite join_glue.
    apply takes_seq with (g1 := g).
    + apply takes_plus; auto. destruct l; cbn; auto.
    + apply takes_blocks; auto; try reflexivity. apply alnum_not_sep.
  - cbn. apply takes_skip. apply fails_seq. apply fails_chr. reflexivity.
Qed.

(** R_dev on ".dev<n>..." or on "dev<n>..." (when the pre-release took the dot) *)
Lemma takes_dev (dot : bool) n rest g : (0 <= n)%Z -> ends_well rest ->
  takes R_dev ((if dot then [46%N] else []) ++ u "dev" ++ str_int n) rest g ((8, str_int n) :: (7, u "dev") :: g).
Proof.
  intros H E. unfold R_dev. apply takes_altL. apply takes_seq with (g1 := g).
  { destruct dot; [apply takes_sep_dot|]. apply takes_sep_skip. reflexivity. }
  apply takes_seq with (g1 := (7, u "dev") :: g).
  { apply takes_grp. apply takes_lit. repeat constructor. }
  rewrite <- (app_nil_l (str_int n)) at 1. apply takes_seq with (g1 := (7, u "dev") :: g).
  { apply takes_sep_skip. now apply not_first_num. }
  apply takes_altL. apply takes_num; auto. now apply ends_digit.
Qed.
Lemma no_dev rest g : ends_well rest -> takes R_dev [] rest g g.
Proof.
  intros E. apply takes_skip. apply fails_sep.
  - apply fails_seq. apply fails_grp. destruct E as [->|[t ->]]; apply (fails_words [u "dev"]); reflexivity.
  - destruct E as [->|[t ->]]; auto. discriminate.
Qed.
(** what may follow a post-release: nothing, +local, or a dev-release *)
Definition after_post (s : str) : Prop := ends_well s \/ exists t, s = u ".dev" ++ t.
Lemma after_post_digit s : after_post s -> not_first is_digit s.
Proof. intros [E|[t ->]]; [now apply ends_digit|reflexivity]. Qed.
Lemma takes_post (dot : bool) n rest g : (0 <= n)%Z -> after_post rest ->
  takes R_post ((if dot then [46%N] else []) ++ u "post" ++ str_int n) rest g ((6, str_int n) :: (5, u "post") :: g).
Proof.
  intros H E. unfold R_post. apply takes_altL. apply takes_altR.
  { destruct dot; apply fails_seq; apply fails_chr; reflexivity. }
  apply takes_seq with (g1 := g).
  { destruct dot; [apply takes_sep_dot|]. apply takes_sep_skip. reflexivity. }
  apply takes_seq with (g1 := (5, u "post") :: g).
  { apply takes_grp. apply (takes_word _ _ _ _ [] [u "rev"; u "r"]); try reflexivity. repeat constructor. }
  rewrite <- (app_nil_l (str_int n)) at 1. apply takes_seq with (g1 := (5, u "post") :: g).
  { apply takes_sep_skip. now apply not_first_num. }
  apply takes_altL. apply takes_num; auto. now apply after_post_digit.
Qed.
Lemma no_post rest g : after_post rest \/ (exists t, rest = u "dev" ++ t) -> takes R_post [] rest g g.
Proof.
  intros E. apply takes_skip. apply fails_alt.
  - apply fails_seq. apply fails_chr. destruct E as [[[->|[t ->]]|[t ->]]|[t ->]]; reflexivity.
  - apply fails_sep.
    + apply fails_seq. apply fails_grp. apply fails_words. destruct E as [[[->|[t ->]]|[t ->]]|[t ->]]; reflexivity.
    + destruct E as [[[->|[t ->]]|[t ->]]|[t ->]]; auto; try discriminate. intros _.
      apply fails_seq. apply fails_grp. apply fails_words. reflexivity.
Qed.
(** what may follow a pre-release *)
Definition after_pre (s : str) : Prop := after_post s \/ exists t, s = u ".post" ++ t.
Lemma after_pre_digit s : after_pre s -> not_first is_digit s.
Proof. intros [E|[t ->]]; [now apply after_post_digit|reflexivity]. Qed.
Lemma no_pre rest g : after_pre rest -> takes R_pre [] rest g g.
Proof.
  intros E. apply takes_skip. apply fails_sep.
  - apply fails_seq. apply fails_grp. apply fails_words. destruct E as [[[->|[t ->]]|[t ->]]|[t ->]]; reflexivity.
  - destruct E as [[[->|[t ->]]|[t ->]]|[t ->]]; auto; try discriminate; intros _;
    apply fails_seq; apply fails_grp; apply fails_words; reflexivity.
Qed.
Lemma takes_label lv rest g : lv <> Final -> takes (Grp 2 (alts pre_labels)) (level_str lv) rest g ((2, level_str lv) :: g).
Proof.
  intros NF. apply takes_grp. destruct lv; try congruence.
  - apply (takes_word _ _ _ _ [] [u "b"; u "c"; u "rc"; u "alpha"; u "beta"; u "pre"; u "preview"]); try reflexivity. repeat constructor.
  - apply (takes_word _ _ _ _ [u "a"] [u "c"; u "rc"; u "alpha"; u "beta"; u "pre"; u "preview"]); try reflexivity. repeat constructor.
  - apply (takes_word _ _ _ _ [u "a"; u "b"; u "c"] [u "alpha"; u "beta"; u "pre"; u "preview"]); try reflexivity. repeat constructor.
Qed.
Lemma label_no_sep lv rest : lv <> Final -> not_first is_sep (level_str lv ++ rest).
Proof. destruct lv; try congruence; reflexivity. Qed.
Lemma takes_pre_num lv n rest g : lv <> Final -> (0 <= n)%Z -> not_first is_digit rest ->
  takes R_pre (level_str lv ++ str_int n) rest g ((3, str_int n) :: (2, level_str lv) :: g).
Proof.
  intros NF H N. unfold R_pre. apply takes_altL. rewrite <- (app_nil_l (_ ++ _)). apply takes_seq with (g1 := g).
  { apply takes_sep_skip. rewrite <- app_assoc. now apply label_no_sep. }
  apply takes_seq with (g1 := (2, level_str lv) :: g). { now apply takes_label. }
  rewrite <- (app_nil_l (str_int n)) at 1. apply takes_seq with (g1 := (2, level_str lv) :: g).
  { apply takes_sep_skip. now apply not_first_num. }
  apply takes_altL. now apply takes_num.
Qed.
(** no number: the separator after the label swallows a dot if there is one *)
Lemma takes_pre_nonum lv (dot : bool) rest g : lv <> Final -> not_first is_digit rest -> (dot = false -> not_first is_sep rest) ->
  takes R_pre (level_str lv ++ (if dot then [46%N] else [])) rest g ((2, level_str lv) :: g).
Proof.
  intros NF N D. unfold R_pre. apply takes_altL. rewrite <- (app_nil_l (_ ++ _)). apply takes_seq with (g1 := g).
  { apply takes_sep_skip. rewrite <- app_assoc. now apply label_no_sep. }
  apply takes_seq with (g1 := (2, level_str lv) :: g). { now apply takes_label. }
  match goal with |- takes _ ?w _ _ _ => rewrite <- (app_nil_r w) end. apply takes_seq with (g1 := (2, level_str lv) :: g).
  { destruct dot; [apply takes_sep_dot|]. apply takes_sep_skip. now apply D. }
  apply takes_skip. now apply fails_num.
Qed.

(** pre, post and dev together *)
Definition tail_groups (v : version) (g : groups) : groups :=
  let g := match v_level v with Final => g | lv => cap 3 (if truthy (v_serial v) then Some (opt_str (v_serial v)) else None) ((2, level_str lv) :: g) end in
  let g := match v_post v with None => g | Some n => (6, str_int n) :: (5, u "post") :: g end in
  match v_dev v with None => g | Some n => (8, str_int n) :: (7, u "dev") :: g end.
Lemma takes_tail v rest g : wf v -> ends_well rest ->
  takes (Seq R_pre (Seq R_post R_dev)) (level_str (v_level v) ++ serial_str (v_serial v) ++ post_str (v_post v) ++ dev_str (v_dev v)) rest g (tail_groups v g).
Proof.
  intros W E. unfold tail_groups.
  pose proof (wf_post _ W) as WP. pose proof (wf_dev _ W) as WD. pose proof (wf_serial _ W) as WS. pose proof (wf_final _ W) as WF.
  assert (Dev : forall g, takes R_dev (dev_str (v_dev v)) rest g (match v_dev v with None => g | Some n => (8, str_int n) :: (7, u "dev") :: g end)).
  { intros g0. unfold dev_str. destruct (v_dev v) as [n|]; [|now apply no_dev]. apply (takes_dev true n rest g0); auto. }
  assert (AP : after_post (dev_str (v_dev v) ++ rest)).
  { unfold dev_str. destruct (v_dev v); [right; eexists; now rewrite <- app_assoc|left; exact E]. }
  assert (Post : forall g, takes (Seq R_post R_dev) (post_str (v_post v) ++ dev_str (v_dev v)) rest g
      (match v_dev v with None => (match v_post v with None => g | Some n => (6, str_int n) :: (5, u "post") :: g end)
        | Some n => (8, str_int n) :: (7, u "dev") :: (match v_post v with None => g | Some n => (6, str_int n) :: (5, u "post") :: g end) end)).
  { intros g0. eapply takes_seq; [|apply Dev]. unfold post_str. destruct (v_post v) as [n|].
    - apply (takes_post true n); auto. - apply no_post. auto. }
  assert (APr : after_pre ((post_str (v_post v) ++ dev_str (v_dev v)) ++ rest)).
  { unfold post_str. destruct (v_post v); [right; eexists; now rewrite <- !app_assoc|left; exact AP]. }
  destruct (v_level v) eqn:L.
  4:{ cbn [level_str app]. rewrite (WF eq_refl). cbn [serial_str truthy app]. rewrite <- (app_nil_l (_ ++ _)).
      apply takes_seq with (g1 := g); [|apply Post]. now apply no_pre. }
  all: assert (NF : v_level v <> Final) by (rewrite L; discriminate); rewrite <- L.
  all: unfold serial_str; destruct (truthy (v_serial v)) eqn:T; cbn [cap].
  all: try (destruct (v_serial v) as [n|] eqn:S; [|discriminate T]; cbn [opt_str]; rewrite app_assoc;
            eapply takes_seq; [apply takes_pre_num; auto; now apply after_pre_digit|apply Post]).
  (* no serial: the dot of .post / .dev is taken by the pre-release *)
  all: cbn [app]; unfold post_str in *; destruct (v_post v) as [n|].
  all: try (change ((u ".post" ++ str_int n) ++ dev_str (v_dev v)) with ([46%N] ++ (u "post" ++ str_int n) ++ dev_str (v_dev v));
    rewrite app_assoc; eapply takes_seq; [apply (takes_pre_nonum _ true); [exact NF|reflexivity|discriminate]|];
    eapply takes_seq; [apply (takes_post false n); auto|apply Dev]).
  all: cbn [app]; unfold dev_str in *; destruct (v_dev v) as [n|].
  all: try (change (u ".dev" ++ str_int n) with ([46%N] ++ u "dev" ++ str_int n);
    rewrite app_assoc; eapply takes_seq; [apply (takes_pre_nonum _ true); [exact NF|reflexivity|discriminate]|];
    rewrite <- (app_nil_l (u "dev" ++ str_int n)); eapply takes_seq; [apply no_post; right; rewrite <- app_assoc; eauto|apply (takes_dev false n); auto]).
  all: eapply takes_seq; [|apply Post];
    pose proof (takes_pre_nonum (v_level v) false rest g NF (ends_digit _ E) (fun _ => ends_sep _ E)) as Q; rewrite app_nil_r in Q; exact Q.
Qed.

(** ---- the whole pattern ---- *)
Lemma span_unique p a : forall b s t, all_of p a -> all_of p b -> not_first p s -> not_first p t -> a ++ s = b ++ t -> a = b /\ s = t.
Proof.
  unfold all_of. induction a as [|x a IH]; intros [|y b] s t A B S T E; cbn in *; auto.
  - subst s. cbn in S. apply andb_true_iff in B. destruct B. congruence.
  - subst t. cbn in T. apply andb_true_iff in A. destruct A. congruence.
  - injection E as -> E. apply andb_true_iff in A, B. destruct (IH b s t) as [-> ->]; try tauto.
Qed.
Lemma takes_release l rest g : l <> [] -> nonnegs l -> not_first is_digit rest ->
  (match rest with d :: t => (d =? 46)%N = true -> not_first is_digit t | [] => True end) ->
  takes R_release (join (u ".") (map str_int l)) rest g ((1, join (u ".") (map str_int l)) :: g).
Proof.
  intros NE P N N2. unfold R_release. apply takes_grp. destruct l as [|z l]; [congruence|].
  inversion P as [|? ? Hz P']; subst. cbn [map]. change (u ".") with [46%N]. rewrite join_glue.
  destruct (str_int_spec z Hz) as [[A B] _]. apply takes_seq with (g1 := g).
  - apply takes_plus; auto. destruct l; cbn; auto.
  - unfold ch, Digits. apply takes_blocks; auto; try reflexivity. { apply digit_not_dot. }
    apply Forall_forall. intros x I. apply in_map_iff in I. destruct I as (y & <- & I).
    unfold nonnegs in P'. rewrite Forall_forall in P'. destruct (str_int_spec y (P' y I)). auto.
Qed.
Lemma release_starts l : l <> [] -> nonnegs l -> exists c t, join (u ".") (map str_int l) = c :: t /\ is_digit c = true.
Proof.
  intros NE P. destruct l as [|z l]; [congruence|]. inversion P as [|? ? Hz _]; subst.
  cbn [map]. change (u ".") with [46%N]. rewrite join_glue. destruct (str_int_spec z Hz) as [[A B] _].
  destruct (str_int z) as [|c t]; [congruence|]. unfold all_of in B. cbn in B. apply andb_true_iff in B. exists c, (t ++ glue 46%N (map str_int l)). cbn. tauto.
Qed.
Lemma takes_epoch o l rest g : match o with Some z => (0 <= z)%Z | None => True end -> l <> [] -> nonnegs l ->
  not_first is_digit rest -> not_first (fun c => (c =? 33)%N) rest ->
  takes R_epoch (epoch_str o) (join (u ".") (map str_int l) ++ rest) g (cap 0 (if truthy o then Some (opt_str o) else None) g).
Proof.
  intros H NE P N N2. unfold epoch_str, R_epoch. destruct (truthy o) eqn:T.
  - destruct o as [z|]; [|discriminate]. cbn [opt_str cap]. apply takes_altL. eapply takes_seq.
    + apply takes_num; auto. reflexivity. + apply takes_chr. reflexivity.
  - cbn [cap]. apply takes_skip. intros g0 s' g' R. apply rel_seq in R. destruct R as (s1 & g1 & R1 & R2).
    apply rel_grp in R1. destruct R1 as (d & g2 & E & R1 & ->). apply rel_plus_class in R1. destruct R1 as (ds & NEd & Q & D & ->).
    rewrite E in Q. apply app_inv_tail in Q. subst ds.
    apply rel_chr in R2. destruct R2 as (c & -> & Hc & ->). apply N.eqb_eq in Hc. subst c.
    destruct l as [|z l]; [congruence|]. inversion P as [|? ? Hz _]; subst.
    cbn [map] in E. change (u ".") with [46%N] in E. rewrite join_glue, <- app_assoc in E.
    destruct (str_int_spec z Hz) as [[A B] _].
    apply (span_unique is_digit) in E; auto.
    + destruct E as [_ E]. destruct l as [|y l]; cbn in E.
      * destruct rest as [|c t]; [discriminate|]. injection E as -> _. cbn in N2. discriminate.
      * discriminate.
    + destruct l; cbn; auto.
    + reflexivity.
Qed.

Lemma rel_match v s : wf v -> show v = Ok s -> re_match version_re s =
  Some (cap 9 (option_map (join (u ".")) (v_local v)) (tail_groups v ((1, join (u ".") (map str_int (v_release v))) :: cap 0 (if truthy (v_epoch v) then Some (opt_str (v_epoch v)) else None) [])), []).
Proof.
  intros W Hs. rewrite (show_eq v W) in Hs. match type of Hs with Ok ?a = Ok _ => assert (Hq : s = a) by congruence; clear Hs; subst s end.
  set (E := epoch_str (v_epoch v)). set (Rl := join (u ".") (map str_int (v_release v))).
  set (T := level_str (v_level v) ++ serial_str (v_serial v) ++ post_str (v_post v) ++ dev_str (v_dev v)).
  set (L := local_str (v_local v)).
  assert (Et : E ++ Rl ++ level_str (v_level v) ++ serial_str (v_serial v) ++ post_str (v_post v) ++ dev_str (v_dev v) ++ L = E ++ Rl ++ T ++ L).
  { unfold T. rewrite <- !app_assoc. reflexivity. }
  rewrite Et.
  destruct (release_starts _ (wf_rel_ne _ W) (wf_rel _ W)) as (c0 & t0 & Er & Dc). fold Rl in Er.
  assert (Start : exists c t, E ++ Rl ++ T ++ L = c :: t /\ is_digit c = true).
  { unfold E, epoch_str. pose proof (wf_epoch _ W) as We. destruct (v_epoch v) as [z|]; cbn [truthy opt_str].
    - destruct (z =? 0)%Z eqn:Z0; cbn [negb app].
      + rewrite Er. cbn. eauto.
      + destruct (str_int_spec z We) as [[NE D] _]. destruct (str_int z) as [|c t]; [congruence|].
        unfold all_of in D. cbn in D. apply andb_true_iff in D. cbn. exists c. eexists. split; [reflexivity|tauto].
    - rewrite Er. cbn. eauto. }
  destruct Start as (c & t & Es & Dd). destruct (digit_facts c Dd) as (F1 & F2 & _).
  (* what follows the release *)
  assert (TL : T ++ L = [] \/ exists d r, T ++ L = d :: r /\ is_digit d = false /\ (d =? 33)%N = false /\ ((d =? 46)%N = true -> not_first is_digit r)).
  { unfold T, L. pose proof (wf_final _ W) as WF. destruct (v_level v) eqn:Lv; cbn [level_str app u].
    1,2,3: right; eexists; eexists; split; [reflexivity|repeat split; discriminate].
    rewrite (WF eq_refl). cbn [serial_str truthy app]. destruct (v_post v) as [n|]; cbn [post_str app u].
    { right; eexists; eexists; split; [reflexivity|repeat split; intros; reflexivity]. }
    destruct (v_dev v) as [n|]; cbn [dev_str app u].
    { right; eexists; eexists; split; [reflexivity|repeat split; intros; reflexivity]. }
    destruct (v_local v) as [[|x l]|]; cbn; auto.
    right; eexists; eexists; split; [reflexivity|repeat split; discriminate]. }
  assert (N1 : not_first is_digit (T ++ L)) by (destruct TL as [->|(d & r & -> & ? & _)]; cbn; auto).
  assert (N2 : not_first (fun c => (c =? 33)%N) (T ++ L)) by (destruct TL as [->|(d & r & -> & _ & ? & _)]; cbn; auto).
  assert (N3 : match T ++ L with d :: t => (d =? 46)%N = true -> not_first is_digit t | [] => True end)
    by (destruct TL as [->|(d & r & -> & _ & _ & ?)]; cbn; auto).
  pose proof (local_ends (v_local v)) as EL. fold L in EL.
  unfold re_match, version_re.
  set (ge := cap 0 (if truthy (v_epoch v) then Some (opt_str (v_epoch v)) else None) []).
  set (gr := (1, Rl) :: ge).
  set (gl := cap 9 (option_map (join (u ".")) (v_local v)) (tail_groups v gr)).
  set (K := fun (s : str) (g : groups) => Some (g, s)).
  assert (Tw : takes (Star (Chr is_space)) [] (E ++ Rl ++ T ++ L) [] []) by (apply takes_star; [reflexivity|rewrite Es; exact F1]).
  assert (Tv : takes (Opt (lit (u "v"))) [] (E ++ Rl ++ T ++ L) [] []).
  { apply takes_skip. rewrite Es. apply (fails_words [u "v"]). change (u "v") with [118%N]. cbn [forallb prefix_ci]. now rewrite F2. }
  assert (Te : takes R_epoch E (Rl ++ T ++ L) [] ge).
  { apply takes_epoch; auto; apply W. }
  assert (Tr : takes R_release Rl (T ++ L) ge gr).
  { apply takes_release; auto; apply W. }
  assert (Tt : takes (Seq R_pre (Seq R_post R_dev)) T L gr (tail_groups v gr)) by (apply takes_tail; auto).
  assert (Tl : takes R_local L [] (tail_groups v gr) gl).
  { apply takes_local; auto. apply W. }
  change (E ++ Rl ++ T ++ L) with ([] ++ E ++ Rl ++ T ++ L).
  change (rmatch (Seq (Star (Chr is_space)) (Seq (Opt (lit (u "v"))) (Seq R_epoch (Seq R_release (Seq R_pre (Seq R_post (Seq R_dev (Seq R_local (Seq (Star (Chr is_space)) Eol))))))))) ([] ++ E ++ Rl ++ T ++ L) [] K)
   with (rmatch (Star (Chr is_space)) ([] ++ E ++ Rl ++ T ++ L) [] (fun s g => rmatch (Opt (lit (u "v"))) s g (fun s g => rmatch R_epoch s g
      (fun s g => rmatch R_release s g (fun s g => rmatch (Seq R_pre (Seq R_post R_dev)) s g (fun s g => rmatch R_local s g (fun s g => rmatch (Seq (Star (Chr is_space)) Eol) s g K))))))).
  apply Tw. change (E ++ Rl ++ T ++ L) with ([] ++ E ++ Rl ++ T ++ L). apply Tv. apply Te. apply Tr. apply Tt.
  rewrite <- (app_nil_r L). apply Tl. reflexivity.
Qed.

Lemma roundtrip v s : wf v -> show v = Ok s -> parse s = Ok (norm v).
Proof.
  intros W Hs. unfold parse. rewrite (rel_match v s W Hs).
  set (g := cap 9 _ _).
  pose proof (wf_epoch _ W) as We. pose proof (wf_serial _ W) as Ws. pose proof (wf_final _ W) as Wf.
  pose proof (wf_post _ W) as Wp. pose proof (wf_dev _ W) as Wd. pose proof (wf_local _ W) as Wl.
  assert (Ser : forall o, match o with Some z => (0 <= z)%Z | None => True end ->
      option_map int_of (if truthy o then Some (opt_str o) else None) = match o with Some 0%Z => None | o => o end).
  { intros [z|] Hz; auto. cbn [truthy opt_str]. destruct (z =? 0)%Z eqn:Z0; cbn [negb].
    - apply Z.eqb_eq in Z0. subst. reflexivity.
    - cbn [option_map]. destruct (str_int_spec z Hz) as [_ ->]. destruct z; auto. discriminate. }
  assert (C : captured (mkP (if truthy (v_epoch v) then Some (opt_str (v_epoch v)) else None) (join (u ".") (map str_int (v_release v)))
      (match v_level v with Final => None | lv => Some (level_str lv, if truthy (v_serial v) then Some (opt_str (v_serial v)) else None) end)
      (option_map (fun n => Some (str_int n)) (v_post v)) (option_map (fun n => Some (str_int n)) (v_dev v)) (option_map (join (u ".")) (v_local v))) g).
  { subst g. unfold captured, tail_groups. cbn [p_epoch p_release p_pre p_post p_dev p_local].
    generalize (join (u ".") (map str_int (v_release v))). intros rl.
    generalize (if truthy (v_epoch v) then Some (opt_str (v_epoch v)) else None). intros oe.
    generalize (if truthy (v_serial v) then Some (opt_str (v_serial v)) else None). intros os.
    generalize (option_map (join (u ".")) (v_local v)). intros ol.
    destruct oe, ol, (v_level v), os, (v_post v), (v_dev v); cbn; repeat split; eauto 10. }
  pose proof (parse_captured s g [] _ (rel_match v s W Hs) C) as Q.
  unfold parse in Q. rewrite (rel_match v s W Hs) in Q. fold g in Q. rewrite Q. clear Q.
  unfold interp, norm. cbn [p_epoch p_release p_pre p_post p_dev p_local].
  assert (Rel : clip (map int_of (split1 (fun c => (c =? 46)%N) (join (u ".") (map str_int (v_release v))))) = v_release v).
  { change (u ".") with [46%N]. rewrite (split1_join (fun c => (c =? 46)%N) 46%N).
    - rewrite map_map. rewrite (map_ext_in _ (fun z => z)). { rewrite map_id. apply (wf_clip _ W). }
      intros z I. pose proof (wf_rel _ W) as P. unfold nonnegs in P. rewrite Forall_forall in P. apply (str_int_spec z (P z I)).
    - reflexivity.
    - pose proof (wf_rel_ne _ W). destruct (v_release v); [congruence|discriminate].
    - apply Forall_forall. intros x I. apply in_map_iff in I. destruct I as (z & <- & I).
      pose proof (wf_rel _ W) as P. unfold nonnegs in P. rewrite Forall_forall in P. destruct (str_int_spec z (P z I)) as [[_ D] _].
      unfold all_of in D. rewrite forallb_forall in *. intros d Id. rewrite digit_not_dot; auto. }
  rewrite Rel.
  assert (Loc : option_map (split1 is_sep) (option_map (join (u ".")) (v_local v)) = v_local v).
  { destruct (v_local v) as [l|]; auto. cbn. destruct Wl as [NE F]. change (u ".") with [46%N]. rewrite (split1_join is_sep 46%N); auto.
    apply Forall_forall. intros x I. rewrite Forall_forall in F. destruct (F x I) as [_ A].
    unfold all_of in A. rewrite forallb_forall in *. intros d Id. rewrite alnum_not_sep; auto. }
  rewrite Loc, (Ser _ We).
  assert (Po : match option_map (fun n => Some (str_int n)) (v_post v) with Some (Some n) => Some (int_of n) | _ => None end = v_post v).
  { destruct (v_post v) as [n|]; auto. cbn. destruct (str_int_spec n Wp) as [_ ->]. auto. }
  assert (De : match option_map (fun n => Some (str_int n)) (v_dev v) with Some (Some n) => Some (int_of n) | _ => None end = v_dev v).
  { destruct (v_dev v) as [n|]; auto. cbn. destruct (str_int_spec n Wd) as [_ ->]. auto. }
  rewrite Po, De. specialize (Ser _ Ws).
  assert (N0 : forall o : option Z, match o with Some 0%Z => None | o => o end = match o with Some 0%Z => None | _ => o end).
  { intros [[]|]; reflexivity. }
  destruct (v_level v) eqn:L; cbn [level_str].
  4:{ rewrite (Wf eq_refl). destruct (v_epoch v) as [[]|]; reflexivity. }
  all: change (level_of (u "a")) with (Some Alpha); change (level_of (u "b")) with (Some Beta); change (level_of (u "rc")) with (Some RC);
    cbn beta iota; destruct (v_epoch v) as [[]|]; f_equal; f_equal;
    (etransitivity; [|etransitivity; [exact Ser|destruct (v_serial v) as [[]|]; reflexivity]]);
    destruct (truthy (v_serial v)); reflexivity.
Qed.

(** what parsing yields is well formed *)
Lemma clip_idem l : clip (clip l) = clip l.
Proof.
  destruct l as [|x l]; [reflexivity|]. rewrite (clip_significant (x :: l)) by discriminate.
  assert (SS : forall l, significant (significant l) = significant l).
  { clear. induction l as [|x l IH]; auto. cbn. destruct (significant l) as [|y r] eqn:E.
    - destruct (x =? 0)%Z eqn:Q; auto. cbn. now rewrite Q.
    - cbn [significant] in *. rewrite IH. reflexivity. }
  specialize (SS (x :: l)). destruct (significant (x :: l)) as [|y r] eqn:E; [reflexivity|].
  rewrite clip_significant by discriminate. now rewrite SS.
Qed.
Lemma interp_wf s p v : pep440 s p -> interp p = Ok v -> wf v.
Proof.
  intros (w1 & v0 & e & r & a & b & d & l & w2 & _ & -> & _ & _ & E & D & A & B & Dv & L & _) I.
  unfold interp in I. destruct (match p_pre p with None => Some Final | Some (l, _) => level_of l end) as [lv|] eqn:Lv; [|discriminate].
  injection I as <-. constructor; cbn.
  - destruct (p_epoch p); cbn; auto. apply int_of_nonneg.
  - rewrite clip_significant by apply release_nonneg. destruct (significant _); discriminate.
  - rewrite clip_significant by apply release_nonneg. pose proof (significant_nonneg _ (proj1 (release_nonneg (p_release p)))) as Q.
    destruct (significant _); auto. repeat constructor. lia.
  - apply clip_idem.
  - destruct (p_pre p) as [[? [n|]]|]; auto. apply int_of_nonneg.
  - intros ->. destruct (p_pre p) as [[l' n]|]; auto. exfalso. unfold level_of in Lv.
    repeat match type of Lv with (if ?b then _ else _) = _ => destruct b; try discriminate end.
  - destruct (p_post p) as [[n|]|]; auto. apply int_of_nonneg.
  - destruct (p_dev p) as [[n|]|]; auto. apply int_of_nonneg.
  - destruct (p_local p) as [l'|]; cbn; auto. destruct L as [S _]. split; [apply split1_nonnil|exact S].
Qed.
