(** parse_delimiters accepts exactly the well nested texts (lemmas for C91). *)
From Verif Require Import DeprModel DeprSpec PyStrProof DelimProof.

Lemma eqb_one c w : str_eqb [c] w = true <-> w = [c].
Proof. rewrite str_eqb_eq. split; congruence. Qed.
(** what is known of the delimiters after the checks *)
Definition delims_ok (ds : list delim) : Prop :=
  (forall d, In d ds -> d_open d <> [backslash_chr] /\ d_close d <> [backslash_chr]) /\ NoDup (map d_open ds).
Section PO.
  Context (ds : list delim) (OK : delims_ok ds).
  Notation loop := (parse_loop ds (closers_of ds)).

  Lemma closers_iff c : existsb (str_eqb [c]) (closers_of ds) = true <-> closing ds c.
  Proof.
    unfold closers_of, closing. rewrite existsb_exists. split.
    - intros (w & I & E). apply eqb_one in E. subst w. apply in_map_iff in I. destruct I as (d & E & I). apply filter_In in I. destruct I as [I N]. exists d. split; auto. split; auto.
      intros E'. rewrite E, E' in N. now rewrite (proj2 (str_eqb_eq _ _) eq_refl) in N.
    - intros (d & I & E & N). exists [c]. split; [|now apply eqb_one]. apply in_map_iff. exists d. split; auto. apply filter_In. split; auto. apply negb_true_iff, not_true_iff_false. rewrite str_eqb_eq. congruence.
  Qed.
  Lemma opener_some c d : opener ds c = Some d <-> In d ds /\ d_open d = [c].
  Proof.
    unfold opener. split.
    - intros E. apply find_some in E. destruct E as [I E]. rewrite <- in_rev in I. apply str_eqb_eq in E. auto.
    - intros [I E]. destruct (find _ (rev ds)) as [d'|] eqn:F.
      + apply find_some in F. destruct F as [I' E']. rewrite <- in_rev in I'. apply str_eqb_eq in E'. f_equal. destruct OK as [_ ND].
        clear - I I' E E' ND. induction ds as [|x l IH]; [destruct I|]. cbn in ND. inversion ND as [|? ? H1 H2]; subst.
        assert (K : forall y, In y l -> d_open y = d_open x -> False) by (intros y Iy Ey; apply H1; rewrite <- Ey; now apply in_map).
        destruct I as [->|I], I' as [->|I']; auto; exfalso; eapply K; eauto; congruence.
      + exfalso. pose proof (find_none _ _ F d) as G. rewrite <- in_rev in G. specialize (G I). cbn in G. rewrite E in G. now rewrite (proj2 (str_eqb_eq _ _) eq_refl) in G.
  Qed.
  Lemma opener_none c : opener ds c = None <-> ~ opening ds c.
  Proof.
    split.
    - intros E (d & I & Q). assert (opener ds c = Some d) by now apply opener_some. congruence.
    - intros N. destruct (opener ds c) as [d|] eqn:E; auto. exfalso. apply N. apply opener_some in E. exists d. exact E.
  Qed.
  Lemma is_close_iff d c : is_close d c = true <-> ends d c.
  Proof. destruct d as [d|]; cbn; [apply eqb_one|split; [discriminate|contradiction]]. Qed.
  Lemma nests_iff d : cur_nested d = true <-> nests d. Proof. destruct d; cbn; tauto. Qed.
  Lemma escapes_iff d : cur_backslash d = true <-> escapes d. Proof. destruct d; cbn; split; try discriminate; tauto. Qed.

  (** one character *)
  Lemma loop_plain c t text d stack : ~ ends d c -> (nests d -> ~ closing ds c /\ ~ opening ds c) ->
    loop (c :: t) text d stack false = loop t (text ++ [c]) d stack (cur_backslash d && (c =? backslash_chr)%N).
  Proof.
    intros N1 N2. cbn [parse_loop]. destruct (is_close d c) eqn:C; [apply is_close_iff in C; contradiction|]. destruct (cur_nested d) eqn:CN; auto.
    destruct (N2 (proj1 (nests_iff d) CN)) as [A B]. cbn [andb]. destruct (existsb _ _) eqn:X; [apply closers_iff in X; contradiction|]. apply opener_none in B. now rewrite B.
  Qed.
  Lemma loop_open c p t text d stack : nests d -> In p ds -> d_open p = [c] -> ~ ends d c -> ~ closing ds c ->
    loop (c :: t) text d stack false = yield_ (text, [c], []) (loop t [] (Some p) (d :: stack) false).
  Proof.
    intros N I O E C. cbn [parse_loop]. destruct (is_close d c) eqn:IC; [apply is_close_iff in IC; contradiction|]. apply nests_iff in N. rewrite N. cbn [andb].
    destruct (existsb _ _) eqn:X; [apply closers_iff in X; contradiction|]. assert (opener ds c = Some p) as -> by now apply opener_some. reflexivity.
  Qed.
  Lemma loop_close c p t text d stack : d_close p = [c] -> loop (c :: t) text (Some p) (d :: stack) false = yield_ (text, [], [c]) (loop t [] d stack false).
  Proof. intros E. cbn [parse_loop]. assert (is_close (Some p) c = true) as -> by (apply is_close_iff; exact E). reflexivity. Qed.

  (** what is yielded for tokens, and the text that is left over *)
  Fixpoint run (text : str) (l : list tok) : list triple * str :=
    match l with
    | [] => ([], text)
    | Ch c :: t => run (text ++ [c]) t
    | Op c :: t => let '(y, r) := run [] t in ((text, [c], []) :: y, r)
    | Cl c :: t => let '(y, r) := run [] t in ((text, [], [c]) :: y, r)
    end.
  Definition prepend {A} (l : list A) (g : generated A) : generated A := (l ++ fst g, snd g).
  Lemma run_app a b text : run text (a ++ b) = let '(y, r) := run text a in let '(y', r') := run r b in (y ++ y', r').
  Proof.
    revert text. induction a as [|[c|c|c] a IH]; intros text; cbn [run app]; try (now destruct (run text b)); auto; rewrite IH; destruct (run [] a) as [y r]; destruct (run r b); reflexivity.
  Qed.
  Lemma tuples_run l text : tuples text l = let '(y, r) := run text l in y ++ (if is_nil r then [] else [(r, [], [])]).
  Proof.
    revert text. induction l as [|[c|c|c] l IH]; intros text; cbn [tuples run]; auto; try (now destruct text); rewrite IH; destruct (run [] l); reflexivity.
  Qed.
  Definition known (ctx : option delim) : Prop := match ctx with Some p => In p ds | None => True end.
  Lemma loop_nested ctx toks : nested ds ctx toks -> known ctx -> forall rest text stack,
    loop (map tok_chr toks ++ rest) text ctx stack false = let '(y, r) := run text toks in prepend y (loop rest r ctx stack false).
  Proof.
    induction 1 as [ctx|ctx c t N1 N2 N3 H IH|ctx c t E H IH|ctx p o c inner t N I O E C K H1 IH1 H2 IH2]; intros Kn rest text stack.
    - cbn. unfold prepend. cbn. now destruct (loop rest text ctx stack false).
    - cbn [map tok_chr app run]. rewrite loop_plain; auto. assert (cur_backslash ctx && (c =? backslash_chr)%N = false) as ->; [|now apply IH].
      apply andb_false_iff. destruct (cur_backslash ctx) eqn:B; auto. right. apply N.eqb_neq. apply N3. now apply escapes_iff.
    - cbn [map tok_chr app run]. assert (Esc : cur_backslash ctx = true) by now apply escapes_iff. destruct OK as [NB _].
      assert (P : loop (92%N :: c :: map tok_chr t ++ rest) text ctx stack false = loop (c :: map tok_chr t ++ rest) (text ++ [92%N]) ctx stack true).
      { rewrite loop_plain; [now rewrite Esc| |].
        - destruct ctx as [p|]; [|intros []]. cbn. intros Q. destruct (NB p Kn) as [_ B]. now apply B.
        - intros _. split; [intros (p & I & Q & _); destruct (NB p I) as [_ B]; now apply B|intros (p & I & Q); destruct (NB p I) as [B _]; now apply B]. }
      etransitivity; [exact P|]. cbn [parse_loop]. now apply IH.
    - cbn [map tok_chr app run]. rewrite (loop_open o p); auto. rewrite map_app, <- app_assoc, IH1 by exact I. cbn [map tok_chr app]. rewrite run_app. destruct (run [] inner) as [y1 r1]. cbn [run].
      rewrite (loop_close c p); auto. rewrite IH2 by auto. destruct (run [] t) as [y2 r2]. unfold prepend, yield_. cbn [fst snd app]. now rewrite <- app_assoc.
  Qed.

  (** the tokens that are still to come when delimiters are open *)
  Inductive unwinds : option delim -> list (option delim) -> list tok -> Prop :=
  | unwinds_base t : nested ds None t -> unwinds None [] t
  | unwinds_close d t c d' stack rest : nested ds (Some d) t -> d_close d = [c] -> unwinds d' stack rest -> unwinds (Some d) (d' :: stack) (t ++ Cl c :: rest).
  Inductive good : option delim -> list (option delim) -> Prop :=
  | good_base : good None []
  | good_open d d' stack : In d ds -> good d' stack -> good (Some d) (d' :: stack).
  Lemma unwinds_before d stack rest pre : (forall t, nested ds d t -> nested ds d (pre ++ t)) -> unwinds d stack rest -> unwinds d stack (pre ++ rest).
  Proof. intros H U. destruct U as [t N|d t c d' stack rest N E U]; [constructor; auto|]. rewrite app_assoc. constructor; auto. Qed.
  Lemma unwinds_open d stack p o toks : nests d -> In p ds -> d_open p = [o] -> ~ ends d o -> ~ closing ds o -> unwinds (Some p) (d :: stack) toks -> unwinds d stack (Op o :: toks).
  Proof.
    intros N I O E C U. inversion U as [|? t c ? ? rest H1 H2 H3]; subst. replace (Op o :: t ++ Cl c :: rest) with ((Op o :: t ++ [Cl c]) ++ rest) by (cbn; now rewrite <- app_assoc).
    apply unwinds_before; auto. intros t' H'. cbn [app]. rewrite <- app_assoc. eapply nested_group; eauto.
  Qed.
  Definition outcome (g : generated triple) (y : list triple) (r : str) : Prop := g = (y ++ (if is_nil r then [] else [(r, [], [])]), None).
  (** the loop succeeds only on such tokens, and otherwise raises ValueError *)
  Lemma loop_sound s : forall text d stack, good d stack ->
    (snd (loop s text d stack false) = Some ValueError \/
     exists toks, unwinds d stack toks /\ map tok_chr toks = s /\ loop s text d stack false = (tuples text toks, None)) /\
    (escapes d -> snd (loop s text d stack true) = Some ValueError \/
     exists c toks, unwinds d stack toks /\ c :: map tok_chr toks = s /\ loop s text d stack true = (tuples (text ++ [c]) toks, None)).
  Proof.
    induction s as [|c s IH]; intros text d stack G.
    - split.
      + cbn [parse_loop]. destruct stack as [|d' stack]; [|left; reflexivity]. inversion G; subst. right. exists []. split; [constructor; constructor|]. split; auto. cbn. now destruct text.
      + intros E. cbn [parse_loop]. destruct stack as [|d' stack]; [|left; reflexivity]. inversion G; subst. destruct E.
    - split.
      + destruct (is_close d c) eqn:C.
        * destruct d as [d|]; [|discriminate]. assert (E : d_close d = [c]) by (now apply (is_close_iff (Some d))). inversion G as [|? d' stack' I G']; subst. rewrite (loop_close c d); auto.
          destruct (proj1 (IH [] d' stack' G')) as [H|(toks & U & M & L)]; [left; exact H|]. right. exists ([] ++ Cl c :: toks). split; [constructor; auto; constructor|]. split; [cbn; now rewrite M|]. rewrite L. reflexivity.
        * assert (NE : ~ ends d c) by (rewrite <- is_close_iff; congruence).
          destruct (cur_nested d && existsb (str_eqb [c]) (closers_of ds)) eqn:X; [left; cbn [parse_loop]; now rewrite C, X|].
          destruct (if cur_nested d then opener ds c else None) as [p|] eqn:Op.
          -- destruct (cur_nested d) eqn:CN; [|discriminate]. cbn [andb] in X. apply opener_some in Op. destruct Op as [I O]. assert (NC : ~ closing ds c) by (rewrite <- closers_iff; congruence). apply nests_iff in CN.
             rewrite (loop_open c p); auto. destruct (proj1 (IH [] (Some p) (d :: stack) (good_open _ _ _ I G))) as [H|(toks & U & M & L)]; [left; exact H|]. right. exists (DeprSpec.Op c :: toks).
             split; [eapply unwinds_open; eauto|]. split; [cbn; now rewrite M|]. rewrite L. reflexivity.
          -- assert (NP : nests d -> ~ closing ds c /\ ~ opening ds c).
             { intros N. apply nests_iff in N. rewrite N in X, Op. cbn [andb] in X. split; [rewrite <- closers_iff; congruence|now apply opener_none]. }
             rewrite loop_plain; auto. destruct (cur_backslash d && (c =? backslash_chr)%N) eqn:B.
             ++ apply andb_true_iff in B. destruct B as [B1 B2]. apply N.eqb_eq in B2. apply escapes_iff in B1. subst c. destruct (proj2 (IH (text ++ [backslash_chr]) d stack G) B1) as [H|(c & toks & U & M & L)]; [left; exact H|].
                right. exists ([Ch 92%N; Ch c] ++ toks). split; [apply unwinds_before; auto; intros t Ht; now apply nested_escape|]. split; [cbn; cbn in M; now rewrite M|]. rewrite L. reflexivity.
             ++ destruct (proj1 (IH (text ++ [c]) d stack G)) as [H|(toks & U & M & L)]; [left; exact H|]. right. exists ([Ch c] ++ toks). split; [apply unwinds_before; auto; intros t Ht; apply nested_char; auto|].
                ** intros E ->. apply escapes_iff in E. rewrite E in B. cbn in B. discriminate.
                ** split; [cbn; now rewrite M|]. rewrite L. reflexivity.
      + intros E. cbn [parse_loop]. destruct (proj1 (IH (text ++ [c]) d stack G)) as [H|(toks & U & M & L)]; [left; exact H|]. right. exists c, toks. split; auto. split; [now rewrite M|auto].
  Qed.
  Lemma loop_complete toks : nested ds None toks -> loop (map tok_chr toks) [] None [] false = (tuples [] toks, None).
  Proof.
    intros N. pose proof (loop_nested None toks N I [] [] []) as L. rewrite app_nil_r in L. rewrite L, tuples_run. destruct (run [] toks) as [y r]. unfold prepend. cbn [parse_loop]. destruct (is_nil r); reflexivity.
  Qed.
  (** whatever happens, what has been yielded is the start of s *)
  Lemma loop_prefix s : forall text d stack q, exists rest, text ++ s = concat (map (fun t : triple => fst (fst t) ++ snd (fst t) ++ snd t) (fst (loop s text d stack q))) ++ rest.
  Proof.
    induction s as [|c s IH]; intros text d stack q; cbn [parse_loop].
    - exists (if match stack with [] => true | _ => false end then [] else text). rewrite app_nil_r. destruct stack; [|reflexivity]. destruct text; cbn; now rewrite ?app_nil_r.
    - destruct q; [destruct (IH (text ++ [c]) d stack false) as [r E]; exists r; rewrite <- E, <- app_assoc; reflexivity|].
      destruct (is_close d c).
      + destruct stack as [|d' stack]; cbn [yield_ fst snd map concat app]; [exists s; now rewrite <- !app_assoc|]. destruct (IH [] d' stack false) as [r E]. exists r. cbn [app] in E. rewrite <- !app_assoc. cbn [app]. f_equal. f_equal. exact E.
      + destruct (cur_nested d && _); [exists (text ++ c :: s); reflexivity|]. destruct (if cur_nested d then opener ds c else None) as [p|].
        * cbn [yield_ fst snd map concat app]. destruct (IH [] (Some p) (d :: stack) false) as [r E]. exists r. cbn [app] in E. rewrite <- !app_assoc. cbn [app]. f_equal. f_equal. exact E.
        * destruct (IH (text ++ [c]) d stack (cur_backslash d && (c =? backslash_chr)%N)) as [r E]. exists r. rewrite <- E, <- app_assoc. reflexivity.
  Qed.
  Lemma tuples_text l : forall text, concat (map (fun t : triple => fst (fst t) ++ snd (fst t) ++ snd t) (tuples text l)) = text ++ map tok_chr l.
  Proof.
    induction l as [|[c|c|c] l IH]; intros text; cbn [tuples map tok_chr concat fst snd app].
    - destruct text; cbn; now rewrite ?app_nil_r.
    - now rewrite IH, <- app_assoc.
    - rewrite IH. cbn [app]. now rewrite <- !app_assoc.
    - rewrite IH. cbn [app]. now rewrite <- !app_assoc.
  Qed.
End PO.
