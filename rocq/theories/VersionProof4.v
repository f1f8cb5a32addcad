(** Proofs about Version(release=..., ...) and Version(sys.version_info). *)
From Verif Require Import PyStr PyStrProof Regex RegexProof VersionModel VersionSpec VersionProof VersionParse VersionProof2 VersionProof3.

(** "^[A-Za-z0-9]+$" *)
Definition alnum_text (s : str) : Prop := s <> [] /\ all_of is_ascii_alnum s.
Lemma valid_segment_iff s : valid_segment s = true <-> exists t, alnum_text t /\ (s = t \/ s = t ++ [newline]).
Proof.
  unfold valid_segment, re_match. split.
  - destruct (rmatch _ s [] _) as [x|] eqn:E; [|discriminate]. intros _. apply rmatch_sound in E. destruct E as (s' & g' & R & _).
    apply rel_seq in R. destruct R as (s1 & g1 & R1 & R2). apply rel_plus_class in R1. destruct R1 as (ds & N & -> & F & ->).
    assert (AE : at_eol s1 = true) by (inversion R2; auto). exists ds. split; [split; auto|]. destruct s1 as [|c [|d s1]]; cbn in AE; try discriminate; [left; now rewrite app_nil_r|].
    apply N.eqb_eq in AE. subst c. right. reflexivity.
  - intros (t & [N A] & E). match goal with |- context [rmatch ?r ?s ?g ?k] => destruct (rmatch r s g k) as [x|] eqn:M end; auto. exfalso.
    assert (R : exists s' g', rel (Seq (Plus (Chr is_ascii_alnum)) Eol) s [] s' g').
    { destruct E as [-> | ->].
      - exists [], []. econstructor; [rewrite <- (app_nil_r t) at 1; apply rel_plus_intro; split; eauto|constructor; reflexivity].
      - exists [newline], []. econstructor; [apply rel_plus_intro; split; eauto|constructor; reflexivity]. }
    destruct R as (s' & g' & R). eapply rmatch_complete in R; [exact (R M)|discriminate].
Qed.
Lemma ascii_alnum_alnum c : is_ascii_alnum c = true -> is_alnum c = true.
Proof. unfold is_ascii_alnum, is_alnum. intros H. rewrite H. reflexivity. Qed.
Lemma ascii_seg_ok s : alnum_text s -> seg_ok s.
Proof.
  intros [N A]. split; auto. unfold all_of in *. rewrite forallb_forall in *. intros c I. apply ascii_alnum_alnum. auto.
Qed.

(** * Round trip for versions made from fields *)
Lemma show_norm v : show (norm v) = show v.
Proof.
  unfold show, norm. cbn [v_epoch v_release v_level v_serial v_post v_dev v_local].
  destruct (v_epoch v) as [[]|], (v_serial v) as [[]|]; reflexivity.
Qed.
Lemma clipped_iff l : l <> [] -> (clip l = l <-> length l = 1 \/ last l 0%Z <> 0%Z).
Proof.
  intros N. destruct l as [|x l] using rev_ind; [congruence|]. clear IHl. rewrite last_last.
  destruct l as [|y l].
  - split; auto.
  - rewrite clip_snoc by discriminate. destruct (x =? 0)%Z eqn:Z0.
    + apply Z.eqb_eq in Z0. subst x. split.
      * intros E. exfalso. assert (L : forall l, length (clip l) <= length l).
        { clear. intros l. unfold clip. rewrite rev_length. rewrite <- (rev_length l). generalize (rev l). clear. induction l as [|x l IH]; auto.
          cbn [clip_rev]. destruct l; auto. destruct (x =? 0)%Z; cbn [length] in *; lia. }
        specialize (L (y :: l)). rewrite E in L. rewrite app_length in L. cbn in L. lia.
      * intros [E|E]; [|congruence]. rewrite app_length in E. cbn in E. lia.
    + apply Z.eqb_neq in Z0. split; auto.
Qed.
Lemma clip_nth l : l <> [] -> forall k, nth k (clip l) 0%Z = nth k l 0%Z.
Proof.
  induction l as [|x l IH] using rev_ind; intros N k; [congruence|]. destruct l as [|y l]; [reflexivity|].
  rewrite clip_snoc by discriminate. destruct (x =? 0)%Z eqn:Z0; auto. apply Z.eqb_eq in Z0. subst x. rewrite IH by discriminate.
  destruct (lt_dec k (length (y :: l))) as [L|L].
  - now rewrite app_nth1.
  - rewrite app_nth2 by lia. rewrite nth_overflow by lia. destruct (k - length (y :: l)) as [|[|n]]; reflexivity.
Qed.

(** * sys.version_info *)
(** a character with which nothing after the pre-release label can begin *)
Definition dead (c : chr) : bool := negb (is_sep c || is_digit c || ci 112%N c || ci 114%N c || ci 100%N c || (c =? 43)%N || is_space c).
Definition after_label : re := Seq Sep (Seq (Opt (Grp 3 Digits)) (Seq R_post (Seq R_dev (Seq R_local (Seq (Star (Chr is_space)) Eol))))).
Lemma word_first l x c : word l x -> match x with d :: _ => d = c | [] => False end -> exists a w, In (a :: w) l /\ ci a c = true.
Proof. intros (w & I & F) H. destruct x as [|d x]; [destruct H|]. subst d. inversion F; subst. eauto. Qed.
Lemma app_first (x s : str) c t : c :: t = x ++ s -> x = [] /\ s = c :: t \/ exists x', x = c :: x'.
Proof. intros E. destruct x as [|d x]; [left; auto|]. injection E as <- _. right. eauto. Qed.
Lemma dead_facts c : dead c = true -> is_sep c = false /\ is_digit c = false /\ ci 112%N c = false /\ ci 114%N c = false /\ ci 100%N c = false /\ (c =? 43)%N = false /\ is_space c = false.
Proof. unfold dead. rewrite negb_true_iff, !orb_false_iff. tauto. Qed.
Lemma sep01_dead x x' c : is_sep c = false -> sep01 x -> x = c :: x' -> False.
Proof. intros N [->|(d & H & ->)] E; [discriminate|]. injection E as -> _. congruence. Qed.
Lemma digits_dead x x' c : is_digit c = false -> digits x -> x = c :: x' -> False.
Proof. intros N [_ A] ->. unfold all_of in A. cbn in A. rewrite N in A. discriminate. Qed.
Lemma worded_dead l c (a w b d : str) x' : is_sep c = false -> is_digit c = false -> sep01 a -> word l w -> (forall y z, In (y :: z) l -> ci y c = false) -> ~ In [] l -> a ++ w ++ b ++ d = c :: x' -> False.
Proof.
  intros S D Sa W N1 N2 E. destruct a as [|e a]; [|injection E as -> _; exact (sep01_dead _ _ _ S Sa eq_refl)]. cbn in E.
  destruct w as [|e w]; [destruct W as (y & I & F); inversion F; subst; auto|]. injection E as -> _.
  destruct W as (y & I & F). inversion F as [|y0 e0 y1 w1 C F']; subst. rewrite (N1 _ _ I) in C. discriminate.
Qed.
Lemma dead_tail c t : dead c = true -> fails after_label (c :: t).
Proof.
  intros D g s' g' R. apply dead_facts in D. destruct D as (D1 & D2 & D3 & D4 & D5 & D6 & D7). unfold after_label in R.
  apply rel_seq in R. destruct R as (s1 & g1 & R1 & R). apply rel_sep in R1. destruct R1 as (x & E & X & ->).
  apply app_first in E. destruct E as [[-> ->]|[x' ->]]; [|exact (sep01_dead _ _ _ D1 X eq_refl)]. clear X.
  apply rel_seq in R. destruct R as (s2 & g2 & R1 & R). apply rel_num in R1. destruct R1 as (o & x & E & X & ->).
  apply app_first in E. destruct E as [[-> ->]|[x' ->]]; [|destruct o as [n|]; cbn in X; [destruct X as [<- X]; exact (digits_dead _ _ _ D2 X eq_refl)|discriminate]]. clear X.
  apply rel_seq in R. destruct R as (s3 & g3 & R1 & R). apply rel_post in R1. destruct R1 as (o' & x & E & X & _).
  apply app_first in E. destruct E as [[-> ->]|[x' ->]].
  2:{ destruct o' as [n|]; cbn in X; [|discriminate]. destruct X as [(d & _ & _ & Y)|(a & l & b & d & Y & Sa & W & Sb & Nd)].
      - injection Y as -> _. discriminate.
      - symmetry in Y. eapply worded_dead; [exact D1|exact D2|exact Sa|exact W| |cbn; intuition discriminate|exact Y].
        cbn. intros y z [I|[I|[I|[]]]]; injection I as <- <-; auto. }
  clear X. apply rel_seq in R. destruct R as (s4 & g4 & R1 & R). apply rel_dev in R1. destruct R1 as (o2 & x & E & X & _).
  apply app_first in E. destruct E as [[-> ->]|[x' ->]].
  2:{ destruct o2 as [n|]; cbn in X; [|discriminate]. destruct X as (a & l & b & d & Y & Sa & W & Sb & Nd).
      symmetry in Y. eapply worded_dead; [exact D1|exact D2|exact Sa|exact W| |cbn; intuition discriminate|exact Y].
      cbn. intros y z [I|[]]; injection I as <- <-; auto. }
  clear X. apply rel_seq in R. destruct R as (s5 & g5 & R1 & R). apply rel_local in R1. destruct R1 as (o3 & x & E & X & _).
  apply app_first in E. destruct E as [[-> ->]|[x' ->]].
  2:{ destruct o3 as [n|]; cbn in X; [|discriminate]. destruct X as [_ Y]. injection Y as -> _. discriminate. }
  clear X. apply rel_seq in R. destruct R as (s6 & g6 & R1 & R). apply rel_star_class in R1. destruct R1 as (x & E & X & _).
  apply app_first in E. destruct E as [[-> ->]|[x' ->]]; [|cbn in X; rewrite D7 in X; discriminate].
  assert (AE : at_eol (c :: t) = true) by (inversion R; auto). cbn in AE. destruct t; [|discriminate]. apply N.eqb_eq in AE. subst. discriminate.
Qed.
Definition info_serial (serial : Z) : str := if (serial =? 0)%Z then [] else str_int serial.
Definition info_num (serial : Z) : option str := if (serial =? 0)%Z then None else Some (str_int serial).
Lemma info_tail serial g : (0 <= serial)%Z ->
  rmatch after_label (info_serial serial) g (fun s g => Some (g, s)) = Some (cap 3 (info_num serial) g, []).
Proof.
  intros H. assert (T : takes after_label (info_serial serial) [] g (cap 3 (info_num serial) g)).
  { unfold after_label, info_serial, info_num. destruct (serial =? 0)%Z; cbn [cap].
    - change (@nil chr) with (@nil chr ++ @nil chr) at 1. eapply takes_seq; [apply takes_sep_skip; exact I|].
      change (@nil chr) with (@nil chr ++ @nil chr) at 1. eapply takes_seq; [apply takes_skip; apply fails_num; exact I|].
      change (@nil chr) with (@nil chr ++ @nil chr) at 1. eapply takes_seq; [apply no_post; left; left; left; auto|].
      change (@nil chr) with (@nil chr ++ @nil chr) at 1. eapply takes_seq; [apply no_dev; left; auto|].
      change (@nil chr) with (@nil chr ++ @nil chr) at 1. eapply takes_seq; [apply (takes_local None); auto|].
      change (@nil chr) with (@nil chr ++ @nil chr) at 1. eapply takes_seq; [apply takes_star; reflexivity|]. intros R k x K. exact K.
    - rewrite <- (app_nil_l (str_int serial)). eapply takes_seq; [apply takes_sep_skip; now apply not_first_num|].
      rewrite <- (app_nil_r (str_int serial)) at 1. eapply takes_seq; [apply takes_altL; apply takes_num; [exact H|exact I]|].
      change (@nil chr) with (@nil chr ++ @nil chr) at 1. eapply takes_seq; [apply no_post; left; left; left; auto|].
      change (@nil chr) with (@nil chr ++ @nil chr) at 1. eapply takes_seq; [apply no_dev; left; auto|].
      change (@nil chr) with (@nil chr ++ @nil chr) at 1. eapply takes_seq; [apply (takes_local None); auto|].
      change (@nil chr) with (@nil chr ++ @nil chr) at 1. eapply takes_seq; [apply takes_star; reflexivity|]. intros R k x K. exact K. }
  specialize (T _ (fun s g => Some (g, s)) _ eq_refl). rewrite app_nil_r in T. exact T.
Qed.
Lemma dead_none c t g : dead c = true -> rmatch after_label (c :: t) g (fun s g => Some (g, s)) = None.
Proof. intros D. apply rmatch_none. intros s' g' R. exfalso. exact (dead_tail c t D g s' g' R). Qed.
Definition from_pre : re := Seq R_pre (Seq R_post (Seq R_dev (Seq R_local (Seq (Star (Chr is_space)) Eol)))).
Lemma grp_eq i r s g R (k : str -> groups -> option R) : rmatch (Grp i r) s g k = rmatch r s g (fun s' g' => k s' ((i, firstn (length s - length s') s) :: g')).
Proof. reflexivity. Qed.
Lemma pre_skel sep grp b rest s g R (k : str -> groups -> option R) :
  rmatch (Seq (Alt (Seq sep (Seq grp (Seq sep b))) Eps) rest) s g k =
  match rmatch sep s g (fun s g => rmatch grp s g (fun s g => rmatch (Seq sep (Seq b rest)) s g k)) with Some x => Some x | None => rmatch rest s g k end.
Proof. reflexivity. Qed.
Lemma seq4_skel a b c d e s g R (k : str -> groups -> option R) :
  rmatch (Seq a (Seq b (Seq c (Seq d e)))) s g k =
  rmatch a s g (fun s g => rmatch b s g (fun s g => rmatch c s g (fun s g => rmatch d s g (fun s g => rmatch e s g k)))).
Proof. reflexivity. Qed.
(** a label that is found although a shorter one is a prefix of it *)
Lemma alpha_k (k : str -> groups -> option (groups * str)) N g : (forall c t g, dead c = true -> k (c :: t) g = None) ->
  k N g <> None -> rmatch (alts pre_labels) ([97; 108; 112; 104; 97]%N ++ N) g k = k N g.
Proof.
  intros Dead G.
  transitivity (match k ([108; 112; 104; 97]%N ++ N) g with Some x => Some x | None => match k N g with Some x => Some x | None => None end end).
  { vm_compute. repeat match goal with |- context [match k ?a g with _ => _ end] => destruct (k a g) end; reflexivity. }
  cbn [app]; rewrite (Dead 108%N) by reflexivity. destruct (k N g); [reflexivity|congruence].
Qed.
Lemma beta_k (k : str -> groups -> option (groups * str)) N g : (forall c t g, dead c = true -> k (c :: t) g = None) ->
  k N g <> None -> rmatch (alts pre_labels) ([98; 101; 116; 97]%N ++ N) g k = k N g.
Proof.
  intros Dead G.
  transitivity (match k ([101; 116; 97]%N ++ N) g with Some x => Some x | None => match k N g with Some x => Some x | None => None end end).
  { vm_compute. repeat match goal with |- context [match k ?a g with _ => _ end] => destruct (k a g) end; reflexivity. }
  cbn [app]; rewrite (Dead 101%N) by reflexivity. destruct (k N g); [reflexivity|congruence].
Qed.
Lemma rc_k (k : str -> groups -> option (groups * str)) N g : 
  k N g <> None -> rmatch (alts pre_labels) ([114; 99]%N ++ N) g k = k N g.
Proof.
  intros G.
  transitivity (match k N g with Some x => Some x | None => None end).
  { vm_compute. destruct (k N g); reflexivity. }
  destruct (k N g); [reflexivity|congruence].
Qed.
Lemma label_k L (k : str -> groups -> option (groups * str)) N g : (L = InfoAlpha \/ L = InfoBeta \/ L = InfoCandidate) -> (forall c t g, dead c = true -> k (c :: t) g = None) ->
  k N g <> None -> rmatch (alts pre_labels) (info_level_str L ++ N) g k = k N g.
Proof.
  intros [-> | [-> | ->]] Dead G; [exact (alpha_k k N g Dead G)|exact (beta_k k N g Dead G)|exact (rc_k k N g G)].
Qed.
Lemma firstn_front (a b : str) : firstn (length (a ++ b) - length b) (a ++ b) = a.
Proof. rewrite app_length. replace (length a + length b - length b) with (length a) by lia. now rewrite firstn_app, Nat.sub_diag, firstn_all, app_nil_r. Qed.
Lemma label_grp L serial g : (L = InfoAlpha \/ L = InfoBeta \/ L = InfoCandidate) -> (0 <= serial)%Z ->
  rmatch (Grp 2 (alts pre_labels)) (info_level_str L ++ info_serial serial) g (fun s g => rmatch after_label s g (fun s g => Some (g, s))) = Some (cap 3 (info_num serial) ((2, info_level_str L) :: g), []).
Proof.
  intros HL H. rewrite grp_eq. rewrite label_k; auto.
  - rewrite firstn_front. now apply info_tail.
  - intros c t g' D. now apply dead_none.
  - rewrite firstn_front. rewrite info_tail by auto. discriminate.
Qed.
Lemma pre_label L serial g : (L = InfoAlpha \/ L = InfoBeta \/ L = InfoCandidate) -> (0 <= serial)%Z ->
  rmatch from_pre (info_level_str L ++ info_serial serial) g (fun s g => Some (g, s)) = Some (cap 3 (info_num serial) ((2, info_level_str L) :: g), []).
Proof.
  intros HL H. pose proof (label_grp L serial g HL H) as E.
  assert (T : takes Sep [] (info_level_str L ++ info_serial serial) g g) by (apply takes_sep_skip; destruct HL as [-> | [-> | ->]]; reflexivity).
  unfold from_pre, R_pre, Opt. rewrite (pre_skel Sep (Grp 2 (alts pre_labels)) (Alt (Grp 3 Digits) Eps)).
  change (Seq Sep (Seq (Alt (Grp 3 Digits) Eps) (Seq R_post (Seq R_dev (Seq R_local (Seq (Star (Chr is_space)) Eol)))))) with after_label.
  pose proof (T _ (fun s g => rmatch (Grp 2 (alts pre_labels)) s g (fun s g => rmatch after_label s g (fun s g => Some (g, s)))) _ E) as T'. rewrite app_nil_l in T'. rewrite T'. reflexivity.
Qed.
Lemma no_label g : rmatch from_pre [] g (fun s g => Some (g, s)) = Some (g, []).
Proof. reflexivity. Qed.
Definition info_groups (L : info_level) (serial : Z) (g : groups) : groups :=
  match L with InfoFinal => g | _ => cap 3 (info_num serial) ((2, info_level_str L) :: g) end.
Lemma info_match major minor micro L serial : (0 <= major)%Z -> (0 <= minor)%Z -> (0 <= micro)%Z -> (0 <= serial)%Z ->
  re_match version_re (version_info_str major minor micro L serial) =
  Some (info_groups L serial [(1, join (u ".") (map str_int [major; minor; micro]))], []).
Proof.
  intros H1 H2 H3 H4. set (l := [major; minor; micro]). set (Rl := join (u ".") (map str_int l)).
  set (T := match info_level_str L with [] => [] | rl => rl ++ info_serial serial end).
  assert (Es : version_info_str major minor micro L serial = Rl ++ T).
  { unfold version_info_str, Rl, T, l, info_serial. cbn [map join]. rewrite <- !app_assoc. reflexivity. }
  rewrite Es. assert (Ne : l <> []) by discriminate. assert (Nn : nonnegs l) by (repeat constructor; auto).
  destruct (release_starts l Ne Nn) as (c0 & t0 & Er & Dc). fold Rl in Er. destruct (digit_facts c0 Dc) as (F1 & F2 & _).
  assert (N1 : not_first is_digit T) by (unfold T; destruct L; exact I || reflexivity).
  assert (N2 : not_first (fun c => (c =? 33)%N) T) by (unfold T; destruct L; exact I || reflexivity).
  assert (N3 : match T with d :: t => (d =? 46)%N = true -> not_first is_digit t | [] => True end) by (unfold T; destruct L; exact I || discriminate).
  assert (Tw : takes (Star (Chr is_space)) [] (Rl ++ T) [] []) by (apply takes_star; [reflexivity|rewrite Er; exact F1]).
  assert (Tv : takes (Opt (lit (u "v"))) [] (Rl ++ T) [] []).
  { apply takes_skip. rewrite Er. apply (fails_words [u "v"]). change (u "v") with [118%N]. cbn [forallb prefix_ci app]. now rewrite F2. }
  assert (Te : takes R_epoch [] (Rl ++ T) [] []) by (apply (takes_epoch None l T []); auto).
  assert (Tr : takes R_release Rl T [] [(1, Rl)]) by (apply takes_release; auto).
  assert (Tp : rmatch from_pre T [(1, Rl)] (fun s g => Some (g, s)) = Some (info_groups L serial [(1, Rl)], [])).
  { unfold T, info_groups. destruct L; [apply (pre_label InfoAlpha)|apply (pre_label InfoBeta)|apply (pre_label InfoCandidate)|apply no_label]; auto. }
  unfold re_match.
  unfold version_re. rewrite seq4_skel. change (Rl ++ T) with ([] ++ Rl ++ T).
  apply Tw. change (Rl ++ T) with ([] ++ Rl ++ T). apply Tv. change (Rl ++ T) with ([] ++ Rl ++ T). apply Te. apply Tr. exact Tp.
Qed.
Lemma version_info_fields major minor micro L serial : (0 <= major)%Z -> (0 <= minor)%Z -> (0 <= micro)%Z -> (0 <= serial)%Z ->
  of_version_info major minor micro L serial = Ok (mkV None (clip [major; minor; micro])
    (match L with InfoAlpha => Alpha | InfoBeta => Beta | InfoCandidate => RC | InfoFinal => Final end)
    (match L with InfoFinal => None | _ => if (serial =? 0)%Z then None else Some serial end) None None None).
Proof.
  intros H1 H2 H3 H4. unfold of_version_info, parse. rewrite (info_match major minor micro L serial H1 H2 H3 H4).
  assert (Rel : map int_of (split1 (fun c => (c =? 46)%N) (join (u ".") (map str_int [major; minor; micro]))) = [major; minor; micro]).
  { change (u ".") with [46%N]. rewrite (split1_join (fun c => (c =? 46)%N) 46%N).
    - cbn [map]. now rewrite (proj2 (str_int_spec major H1)), (proj2 (str_int_spec minor H2)), (proj2 (str_int_spec micro H3)).
    - reflexivity.
    - discriminate.
    - apply Forall_forall. intros x I. apply in_map_iff in I. destruct I as (z & <- & I).
      assert (Hz : (0 <= z)%Z) by (destruct I as [<-|[<-|[<-|[]]]]; auto). destruct (str_int_spec z Hz) as [[_ D] _].
      unfold all_of in D. rewrite forallb_forall in *. intros d Id. rewrite digit_not_dot; auto. }
  generalize dependent (join (u ".") (map str_int [major; minor; micro])). intros r Rel. unfold info_groups, info_num.
  destruct L, (serial =? 0)%Z; cbn [cap group]; cbn; rewrite Rel; try rewrite (proj2 (str_int_spec serial H4)); reflexivity.
Qed.
