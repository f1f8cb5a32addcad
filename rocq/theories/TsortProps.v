(** The tsort of big/graph.py: the property C126. *)
From Verif Require Import PyBase PyStr PyDict GraphModel SplitModel GrepModel TsortModel.
From Verif Require Import GraphSpec SplitSpec2 GrepSpec TsortSpec GraphProps GrepProof SplitProof4.
From Coq Require Import Lia.

Lemma split_ws_aux_spec s : let '(w, l) := split_ws_aux s in
  forallb (fun c => negb (is_space c)) w = true /\ exists r, s = w ++ r /\ ws_split is_space None r l /\ match r with c :: _ => is_space c = true | [] => True end.
Proof.
  induction s as [|c s IH]; cbn.
  - split; [reflexivity|]. exists []. repeat split. constructor. reflexivity.
  - destruct (split_ws_aux s) as [w l]. destruct IH as (W & r & -> & R & H). destruct (is_space c) eqn:C; cbn.
    + split; [reflexivity|]. exists (c :: w ++ r). split; [reflexivity|]. split; [|exact C]. change (c :: w ++ r) with ([c] ++ w ++ r). destruct w as [|d w].
      * apply ws_prefix; auto. cbn. now rewrite C.
      * apply ws_word; auto; try discriminate. cbn. now rewrite C.
    + rewrite C. cbn. split; [exact W|]. exists r. auto.
Qed.
Lemma split_ws_spec s : ws_split is_space None s (split_ws s).
Proof.
  unfold split_ws. pose proof (split_ws_aux_spec s) as H. destruct (split_ws_aux s) as [w l]. destruct H as (W & r & -> & R & H).
  destruct w as [|c w]; [exact R|]. apply (ws_word is_space None [] (c :: w) r l); auto; discriminate.
Qed.
Lemma drop_space_spec s : exists a, s = a ++ drop_space s /\ forallb is_space a = true /\ forall c t, drop_space s = c :: t -> is_space c = false.
Proof.
  induction s as [|c s (a & E & A & H)]; cbn.
  - exists []. repeat split. discriminate.
  - destruct (is_space c) eqn:C.
    + exists (c :: a). cbn. rewrite C, A. split; [now rewrite <- E|]. auto.
    + exists []. cbn. repeat split. intros d t [= <- _]. exact C.
Qed.
Lemma forallb_rev {A} (p : A -> bool) l : forallb p (rev l) = forallb p l.
Proof. induction l as [|x l IH]; auto. cbn. rewrite forallb_app, IH. cbn. rewrite andb_true_r. apply andb_comm. Qed.
Lemma strip_spec s : stripped s (strip s).
Proof.
  unfold strip. destruct (drop_space_spec s) as (a & E & A & H). set (t := drop_space s) in *. destruct (drop_space_spec (rev t)) as (b & E' & B & H'). set (r := drop_space (rev t)) in *.
  assert (T : t = rev r ++ rev b) by (rewrite <- rev_app_distr, <- E'; now rewrite rev_involutive).
  exists a, (rev b). split; [rewrite <- T; exact E|]. split; [exact A|]. split; [now rewrite forallb_rev|]. split.
  - intros c x R. apply (H c (x ++ rev b)). now rewrite T, R.
  - intros c x R. apply (f_equal (@rev chr)) in R. rewrite rev_involutive, rev_app_distr in R. cbn in R. exact (H' _ _ R).
Qed.
Lemma stripped_words l l' ws : stripped l l' -> ws_split is_space None l' ws <-> ws_split is_space None l ws.
Proof.
  intros (a & b & -> & A & B & _). assert (forall ws, ws_split is_space None l' ws -> ws_split is_space None (a ++ l' ++ b) ws) as F by (intros; apply ws_prefix; auto; apply ws_suffix; auto).
  split; [apply F|]. intros W. pose proof (F _ (split_ws_spec l')) as W'. rewrite (ws_fun _ _ _ _ W _ W'). apply split_ws_spec.
Qed.
Lemma file_lines_step l rest : ~ In 10%N l -> file_lines (l ++ 10%N :: rest) = (l ++ [10%N]) :: file_lines rest.
Proof.
  induction l as [|c l IH]; intros N; cbn; auto. destruct (c =? 10)%N eqn:C; [apply N.eqb_eq in C; subst; exfalso; apply N; now left|].
  rewrite IH; auto. intros I. apply N. now right.
Qed.
Lemma file_lines_last l : l <> [] -> ~ In 10%N l -> file_lines l = [l].
Proof.
  induction l as [|c l IH]; intros NE N; [congruence|]. cbn. destruct (c =? 10)%N eqn:C; [apply N.eqb_eq in C; subst; exfalso; apply N; now left|].
  destruct l as [|d l]; auto. rewrite IH; auto; [discriminate|]. intros I. apply N. now right.
Qed.
Lemma file_lines_of raw ls : lines_of false raw ls -> Forall2 (fun l fl => fl = l \/ fl = l ++ [10%N]) ls (file_lines (GrepModel.read false raw)).
Proof.
  induction 1 as [|l NE T|l b rest ls T B _ IH].
  - constructor.
  - rewrite read_last by auto. rewrite file_lines_last; auto. apply T.
  - rewrite (read_line false l b rest T B), file_lines_step by apply T. constructor; auto.
Qed.
Lemma line_words l fl ws : fl = l \/ fl = l ++ [10%N] -> ws_split is_space None l ws -> split_ws (strip fl) = ws.
Proof.
  intros E W. assert (W' : ws_split is_space None fl ws) by (destruct E as [->| ->]; auto; apply ws_suffix; auto).
  apply (ws_fun is_space None (strip fl)); [apply split_ws_spec|]. now apply (stripped_words fl _ _ (strip_spec fl)).
Qed.
Lemma order_loop_more ord v : forall fuel w out r, order_loop ord fuel w v out = Some r -> forall k, order_loop ord (fuel + k) w v out = Some r.
Proof.
  induction fuel as [|f IH]; intros w out r E k; [discriminate|]. cbn [order_loop Nat.add] in E |- *.
  destruct (step ord w (OBool v)) as [w1 [[|[|]| | | | |]|]]; auto. destruct (step ord w1 (OReady v)) as [w2 [[| | |l| | |]|]]; auto.
  destruct (step ord w2 (ODone v l)) as [w3 [|]]; auto.
Qed.
Lemma static_order_more ord fuel w g r : static_order ord fuel w g = Some r -> forall k, static_order ord (fuel + k) w g = Some r.
Proof.
  unfold static_order. destruct (step ord w (OView g)) as [w1 [[| | | | | |v]|]]; auto. intros E k. now apply order_loop_more.
Qed.

Section Main.
  Context (code : str -> nat) (name : nat -> str) (ord : list nat -> list nat) (SO : set_order ord).
  Notation read_pairs := (read_pairs code ord).
  Definition fine (l : str) : Prop := blank_line l \/ exists a b, pair_line l a b.
  Definition shows (h : history) (g : nat) (ls : list str) : Prop :=
    (forall n, node_in h g n <-> exists s, mentioned ls s /\ n = code s) /\
    (forall d n, edge_in h g d n <-> exists a b, comes_before ls a b /\ d = code a /\ n = code b).
  Lemma shows_blank h g ls l : shows h g ls -> blank_line l -> shows h g (ls ++ [l]).
  Proof.
    intros [H1 H2] B. assert (C : forall a b, comes_before (ls ++ [l]) a b <-> comes_before ls a b).
    { intros a b. split; intros (x & I & P).
      - apply in_app_iff in I. destruct I as [I|[<-|[]]]; [exists x; auto|]. pose proof (ws_fun _ _ _ _ B _ P). discriminate.
      - exists x. split; auto. apply in_app_iff. auto. }
    split.
    - intros n. rewrite H1. split; intros (s & (a & b & P & Q) & E); exists s; split; auto; exists a, b; split; auto; now apply C.
    - intros d n. rewrite H2. split; intros (a & b & P & E); exists a, b; split; auto; now apply C.
  Qed.
  Lemma shows_pair h g ls l a b r : shows h g ls -> pair_line l a b -> shows ((OAdd g (code b) [code a], r) :: h) g (ls ++ [l]).
  Proof.
    intros [H1 H2] B. assert (C : forall x y, comes_before (ls ++ [l]) x y <-> comes_before ls x y \/ (x = a /\ y = b)).
    { intros x y. split.
      - intros (z & I & P). apply in_app_iff in I. destruct I as [I|[<-|[]]]; [left; exists z; auto|]. pose proof (ws_fun _ _ _ _ B _ P) as E. injection E as -> ->. auto.
      - intros [(z & I & P)|[-> ->]]; [exists z|exists l]; (split; [apply in_app_iff; cbn; auto|auto]). }
    split.
    - intros n. cbn [node_in]. rewrite H1. split.
      + intros [[_ [->|[<-|[]]]]|(s & (x & y & P & Q) & E)].
        * exists b. split; auto. exists a, b. split; auto. apply C. auto.
        * exists a. split; auto. exists a, b. split; auto. apply C. auto.
        * exists s. split; auto. exists x, y. split; auto. apply C. auto.
      + intros (s & (x & y & P & Q) & ->). apply C in P. destruct P as [P|[-> ->]]; [right; exists s; split; auto; exists x, y; auto|].
        left. split; auto. destruct Q as [-> | ->]; cbn; auto.
    - intros d n. cbn [edge_in]. rewrite H2. split.
      + intros [(_ & -> & [<-|[]])|(x & y & P & E)]; [exists a, b|exists x, y]; (split; [apply C; auto|auto]).
      + intros (x & y & P & -> & ->). apply C in P. destruct P as [P|[-> ->]]; [right; eauto|left; cbn; auto].
  Qed.
  Lemma read_spec g : forall todo fls don h w, Forall2 (fun l fl => fl = l \/ fl = l ++ [10%N]) todo fls -> Forall fine todo ->
    GraphSpec.run h w -> good h -> graph_known h g -> shows h g don ->
    exists h' w', read_pairs w g fls = inl w' /\ GraphSpec.run h' w' /\ good h' /\ graph_known h' g /\ shows h' g (don ++ todo) /\
      forall rest, read_pairs w g (fls ++ rest) = read_pairs w' g rest.
  Proof.
    induction todo as [|l todo IH]; intros fls don h w F Okl R G K S; inversion F as [|? fl ? fls' E F']; subst.
    - exists h, w. rewrite app_nil_r. repeat split; auto; apply S.
    - inversion Okl as [|? ? Fl Okl']; subst. cbn [TsortModel.read_pairs app]. destruct Fl as [B|(a & b & P)].
      + assert (is_nil (strip fl) = true) as ->.
        { pose proof (line_words l fl [] E B) as W. destruct (strip_spec fl) as (x & y & _ & _ & _ & H & _). destruct (strip fl) as [|c t]; auto.
          pose proof (split_ws_spec (c :: t)) as W'. rewrite W in W'. inversion W' as [n0 a0 A0 | |]; subst. cbn in A0. rewrite (H c t eq_refl) in A0. discriminate. }
        destruct (IH fls' (don ++ [l]) h w F' Okl' R G K (shows_blank _ _ _ _ S B)) as (h' & w' & H). exists h', w'. rewrite <- app_assoc in H. exact H.
      + assert (is_nil (strip fl) = false) as ->.
        { pose proof (line_words l fl _ E P) as W. destruct (strip fl); auto. discriminate. }
        rewrite (line_words l fl _ E P). destruct (step ord w (OAdd g (code b) [code a])) as [w1 r] eqn:St.
        pose proof (C17_add_succeeds h w ord g _ _ w1 r R G SO K St) as ->.
        destruct (IH fls' (don ++ [l]) ((OAdd g (code b) [code a], Ok VUnit) :: h) w1 F' Okl') as (h' & w' & H).
        * econstructor; eauto.
        * split; auto.
        * destruct K as (o & d & I). exists o, d. now right.
        * now apply shows_pair.
        * exists h', w'. rewrite <- app_assoc in H. exact H.
  Qed.
  Section Names.
    Context (ls : list str) (NC : forall s, mentioned ls s -> name (code s) = s).
    Lemma code_inj a b : mentioned ls a -> mentioned ls b -> code a = code b -> a = b.
    Proof. intros A B E. rewrite <- (NC a A), <- (NC b B). now rewrite E. Qed.
    Lemma path_reaches h g a b : shows h g ls -> path (comes_before ls) a b -> reaches (edge_in h g) (code a) (code b).
    Proof. intros [_ H2]. induction 1 as [a b P|a b c P _ IH]; [apply reaches1|apply reachesS with (code b); auto]; apply H2; eauto. Qed.
    Lemma reaches_path h g x y : shows h g ls -> reaches (edge_in h g) x y -> exists a b, x = code a /\ y = code b /\ mentioned ls a /\ mentioned ls b /\ path (comes_before ls) a b.
    Proof.
      intros [_ H2]. assert (M : forall a b, comes_before ls a b -> mentioned ls a /\ mentioned ls b) by (intros a b P; split; exists a, b; auto).
      induction 1 as [x y P|x y z P _ (b & c & E1 & E2 & M1 & M2 & Q)].
      - apply H2 in P. destruct P as (a & b & P & -> & ->). exists a, b. destruct (M _ _ P). repeat split; auto. now constructor.
      - apply H2 in P. destruct P as (a & b' & P & -> & E). destruct (M _ _ P). assert (b' = b) as -> by (apply code_inj; auto; congruence).
        exists a, c. repeat split; auto. eapply pathS; eauto.
    Qed.
    Lemma acyclic_iff h g : shows h g ls -> acyclic (edge_in h g) <-> no_circle (comes_before ls).
    Proof.
      intros S. split; intros A s P.
      - apply (A (code s)). eapply path_reaches; eauto.
      - destruct (reaches_path _ _ _ _ S P) as (a & b & -> & E & Ma & Mb & Q). apply code_inj in E; auto. subst b. exact (A _ Q).
    Qed.
    Lemma topological_sorted h g out : shows h g ls -> topological (node_in h g) (edge_in h g) out -> sorted_out (mentioned ls) (comes_before ls) (map name out).
    Proof.
      intros [H1 H2] (T1 & T2 & T3). assert (N : forall n, In n out -> exists s, mentioned ls s /\ n = code s /\ name n = s).
      { intros n I. apply T2, H1 in I. destruct I as (s & M & ->). exists s. auto. }
      split; [|split].
      - clear T2 T3. induction out as [|n out IH]; cbn; [constructor|]. inversion T1 as [|? ? I1 I2]; subst. constructor; [|apply IH; auto; intros m I; apply N; now right].
        intros I. apply in_map_iff in I. destruct I as (m & E & I). destruct (N n (or_introl eq_refl)) as (s & _ & -> & E1). destruct (N m (or_intror I)) as (s' & _ & -> & E2). congruence.
      - intros s. rewrite in_map_iff. split.
        + intros (n & <- & I). destruct (N n I) as (s & M & -> & ->). exact M.
        + intros M. exists (code s). split; auto. apply T2, H1. eauto.
      - intros a b P. destruct (T3 (code a) (code b)) as (x & y & z & ->); [apply H2; eauto|]. exists (map name x), (map name y), (map name z).
        rewrite map_app. cbn. rewrite map_app. cbn. rewrite !NC; auto; exists a, b; auto.
    Qed.
  End Names.
  Lemma start : exists w, step ord (mkW [] []) ONewGraph = (w, Ok (VGraph 0 0)) /\ GraphSpec.run [(ONewGraph, Ok (VGraph 0 0))] w /\ shows [(ONewGraph, Ok (VGraph 0 0))] 0 [].
  Proof.
    eexists. split; [reflexivity|]. split; [econstructor; [constructor|exact SO|reflexivity]|]. split.
    - intros n. cbn. split; [contradiction|]. intros (s & (a & b & (l & [] & _) & _) & _).
    - intros d n. cbn. split; [contradiction|]. intros (a & b & (l & [] & _) & _).
  Qed.
  Lemma tsort_good raw ls : lines_of false raw ls -> Forall fine ls ->
    exists h w, GraphSpec.run h w /\ good h /\ graph_known h 0 /\ shows h 0 ls /\
      forall fuel, tsort code name ord fuel raw = match static_order ord fuel w 0 with Some (_, Ok nodes) => Prints (map name nodes) | Some (_, Err e) => Raises e | None => Running end.
  Proof.
    intros L F. destruct start as (w0 & E0 & R0 & S0).
    destruct (read_spec 0 ls _ [] _ w0 (file_lines_of raw ls L) F R0) as (h & w & E & R & G & K & S & _); auto; [split; exact I|exists ONewGraph, 0; now left|].
    exists h, w. repeat (split; [assumption|]). intros fuel. unfold tsort. rewrite E0, E. reflexivity.
  Qed.
End Main.

(** If every line is blank or has two words, and nothing comes before itself, the program
    prints all words in an order as required; if something does, it raises CycleError and
    prints nothing; otherwise it complains about the first line that is neither, and prints
    nothing.  ([code] and [name]: any numbering of strings; [ord]: the order in which Python
    iterates over sets.) *)
Theorem C126_tsort : forall code name ord raw ls, set_order ord -> lines_of false raw ls -> (forall s, mentioned ls s -> name (code s) = s) ->
  Forall (fun l => blank_line l \/ exists a b, pair_line l a b) ls ->
  (no_circle (comes_before ls) -> exists rounds out, sorted_out (mentioned ls) (comes_before ls) out /\ forall fuel, rounds <= fuel -> tsort code name ord fuel raw = Prints out) /\
  (~ no_circle (comes_before ls) -> forall fuel, tsort code name ord (S fuel) raw = Raises CycleError).
Proof.
  intros code name ord raw ls SO L NC F. destruct (tsort_good code name ord SO raw ls L F) as (h & w & R & G & K & S & T). split.
  - intros A. apply (acyclic_iff code name ls NC h 0 S) in A.
    destruct (C15_static_order_is_topological h w 0 ord R G K SO A) as (rounds & H). destruct (H rounds (le_n _)) as (w' & out & E & Top).
    exists rounds, (map name out). split; [eapply topological_sorted; eauto|]. intros fuel Le. rewrite T.
    replace fuel with (rounds + (fuel - rounds)) by lia. rewrite (static_order_more _ _ _ _ _ E). reflexivity.
  - intros A fuel. destruct (C16_static_order_cycle_error h w 0 ord fuel R G K SO) as (w' & E); [intros H; apply A; now apply (acyclic_iff code name ls NC h 0 S)|]. now rewrite T, E.
Qed.
Print Assumptions C126_tsort.
Theorem C126_invalid_input : forall code name ord raw before l after fuel, set_order ord -> lines_of false raw (before ++ l :: after) ->
  Forall (fun l => blank_line l \/ exists a b, pair_line l a b) before -> bad_line l ->
  exists l', stripped l l' /\ tsort code name ord fuel raw = Exits l'.
Proof.
  intros code name ord raw before l after fuel SO L F [B1 B2]. pose proof (file_lines_of _ _ L) as FL. apply Forall2_app_inv_l in FL. destruct FL as (f1 & f2 & F1 & F2 & EQ).
  inversion F2 as [|? fl ? f2' E F2']; subst. destruct (start code ord SO) as (w0 & E0 & R0 & S0).
  destruct (read_spec code ord SO 0 before f1 [] _ w0 F1 F R0) as (h & w & _ & _ & _ & _ & _ & H); auto; [split; exact I|exists ONewGraph, 0; now left|].
  exists (strip fl). split.
  - generalize (strip_spec fl). generalize (strip fl). intros st (a & b & Efl & A & B & H1 & H2). destruct E as [->| ->].
    + exists a, b. auto.
    + destruct b as [|c b _] using rev_ind.
      * rewrite app_nil_r in Efl. destruct st as [|c t _] using rev_ind.
        -- exfalso. apply B1. rewrite app_nil_r in Efl. apply ws_none. rewrite <- Efl, forallb_app in A. apply andb_true_iff in A. tauto.
        -- rewrite app_assoc in Efl. apply app_inj_tail in Efl. destruct Efl as [_ <-]. specialize (H2 10%N t eq_refl). discriminate.
      * rewrite !app_assoc in Efl. apply app_inj_tail in Efl. destruct Efl as [-> <-]. exists a, b. rewrite <- app_assoc. split; auto. split; auto. rewrite forallb_app in B. apply andb_true_iff in B. tauto.
  - unfold tsort. rewrite E0, EQ, H. cbn [read_pairs].
    assert (W : forall ws, split_ws (strip fl) = ws -> ws_split is_space None l ws).
    { intros ws <-. assert (W : ws_split is_space None fl (split_ws (strip fl))) by (apply (stripped_words fl _ _ (strip_spec fl)), split_ws_spec).
      destruct E as [->| ->]; auto. assert (W' : ws_split is_space None (l ++ [10%N]) (split_ws l)) by (apply ws_suffix; [apply split_ws_spec|reflexivity]).
      rewrite (ws_fun _ _ _ _ W _ W'). apply split_ws_spec. }
    destruct (is_nil (strip fl)) eqn:N.
    + exfalso. apply B1. apply W. destruct (strip fl); [reflexivity|discriminate].
    + destruct (split_ws (strip fl)) as [|x [|y [|]]] eqn:Sp; auto. exfalso. exact (B2 x y (W _ eq_refl)).
Qed.
Print Assumptions C126_invalid_input.
(** every line is one of the three kinds *)
Theorem C126_lines : forall l, (blank_line l \/ exists a b, pair_line l a b) \/ bad_line l.
Proof.
  intros l. pose proof (split_ws_spec l) as W. destruct (split_ws l) as [|x [|y [|z r]]]; [left; left; exact W| |left; right; exists x, y; exact W|];
    (right; split; [intros B; pose proof (ws_fun _ _ _ _ W _ B); discriminate|intros a b P; pose proof (ws_fun _ _ _ _ W _ P); discriminate]).
Qed.
Print Assumptions C126_lines.
(** strings can be numbered *)
From Coq Require Import Cantor.
Fixpoint code_str (s : str) : nat := match s with [] => 0 | c :: t => S (Cantor.to_nat (N.to_nat c, code_str t)) end.
Fixpoint name_nat (fuel n : nat) : str :=
  match fuel, n with S f, S m => let '(c, t) := Cantor.of_nat m in N.of_nat c :: name_nat f t | _, _ => [] end.
Theorem C126_numbering : exists (code : str -> nat) (name : nat -> str), forall s, name (code s) = s.
Proof.
  exists code_str, (fun n => name_nat n n).
  assert (G : forall s f, code_str s <= f -> name_nat f (code_str s) = s).
  { induction s as [|c s IH]; intros f Le; cbn [code_str] in *; [destruct f; reflexivity|]. destruct f as [|f]; [lia|]. cbn [name_nat].
    rewrite Cantor.cancel_of_to, N2Nat.id, IH; auto. pose proof (Cantor.to_nat_non_decreasing (N.to_nat c) (code_str s)). lia. }
  intros s. now apply G.
Qed.
Print Assumptions C126_numbering.

Definition table_code (s : str) : nat := match s with [c] => N.to_nat c - 97 | _ => 26 end.
Definition table_name (n : nat) : str := if n <? 26 then [N.of_nat (n + 97)] else [].
Definition lf (s : str) : str := s ++ [10%N].
Example C126_witness :
  tsort table_code table_name (fun l => l) 5 (lf (u "b  c") ++ lf [] ++ lf (u " a b") ++ u "a c") = Prints [u "a"; u "b"; u "c"] /\
  tsort table_code table_name (fun l => l) 5 (u "a a") = Raises CycleError /\
  tsort table_code table_name (fun l => l) 5 (lf (u "a b") ++ lf (u " a b c ") ++ u "d") = Exits (u "a b c") /\
  lines_of false (lf (u "b  c") ++ lf [] ++ lf (u " a b") ++ u "a c") [u "b  c"; []; u " a b"; u "a c"] /\
  pair_line (u " a b") (u "a") (u "b") /\
  (forall s, mentioned [u "b  c"; []; u " a b"; u "a c"] s -> table_name (table_code s) = s) /\
  no_circle (comes_before [u "b  c"; []; u " a b"; u "a c"]).
Proof.
  assert (P : forall a b, comes_before [u "b  c"; []; u " a b"; u "a c"] a b -> (a = u "b" /\ b = u "c") \/ (a = u "a" /\ b = u "b") \/ (a = u "a" /\ b = u "c")).
  { intros a b (l & I & W). pose proof (ws_fun _ _ _ _ W _ (split_ws_spec l)) as E.
    destruct I as [<-|[<-|[<-|[<-|[]]]]]; vm_compute in E; [injection E as -> ->; auto|discriminate|injection E as -> ->; auto|injection E as -> ->; auto]. }
  split; [vm_compute; reflexivity|]. split; [vm_compute; reflexivity|]. split; [vm_compute; reflexivity|]. split; [|split; [|split]].
  - assert (T : forall l, forallb (fun c => negb (c =? 10)%N && negb (c =? 13)%N) l = true -> line_text false l).
    { intros l H. rewrite forallb_forall in H. split; intros I; [|intros I']; [specialize (H _ I)|specialize (H _ I')]; discriminate. }
    unfold lf. rewrite <- !app_assoc. repeat (apply Line; [apply T; reflexivity|constructor|]). apply LastLine; [discriminate|apply T; reflexivity].
  - exact (split_ws_spec (u " a b")).
  - intros s (a & b & C & E). apply P in C. destruct C as [[-> ->]|[[-> ->]|[-> ->]]], E as [-> | ->]; reflexivity.
  - assert (Lt : forall a b, path (comes_before [u "b  c"; []; u " a b"; u "a c"]) a b -> table_code a < table_code b).
    { induction 1 as [a b C|a b c C _ IH]; apply P in C; destruct C as [[-> ->]|[[-> ->]|[-> ->]]]; vm_compute in *; lia. }
    intros s Q. apply Lt in Q. lia.
Qed.
