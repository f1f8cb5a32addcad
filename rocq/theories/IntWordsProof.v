(** Proofs about int_to_words. *)
From Verif Require Import PyBaseProof IntWordsModel IntWordsSpec.

Definition all_scales := scales ++ misspelled_scales.
Definition all_irregular := irregular_ordinals ++ misspelled_ordinals.
Notation readw := (read_words all_scales).

(** * Words of concatenations *)
Lemma split1_ne p s : split1 p s <> [].
Proof. destruct s as [|c s]; cbn; [discriminate|]. destruct (p c); [discriminate|]. destruct (split1 p s); discriminate. Qed.
Lemma split1_mid p (a : str) c b : p c = true -> split1 p (a ++ c :: b) = split1 p a ++ split1 p b.
Proof.
  intros H. induction a as [|x a IH]; cbn; [now rewrite H|]. destruct (p x); [now rewrite IH|]. rewrite IH.
  pose proof (split1_ne p a). destruct (split1 p a); [congruence|reflexivity].
Qed.
Lemma words_div c s : divider c = true -> words_of (c :: s) = words_of s.
Proof. intros D. unfold words_of. cbn [split1]. now rewrite D. Qed.
Lemma words_app (a : str) c b : divider c = true -> words_of (a ++ c :: b) = words_of a ++ words_of b.
Proof. intros D. unfold words_of. rewrite split1_mid by auto. apply filter_app. Qed.
Lemma words_single (w : str) : w <> [] -> existsb divider w = false -> words_of w = [w].
Proof.
  intros N D. unfold words_of. assert (E : split1 divider w = [w]); [|rewrite E; destruct w; [congruence|reflexivity]].
  clear N. induction w as [|c w IH]; auto. cbn in *. apply orb_false_iff in D. destruct D as [-> D]. now rewrite (IH D).
Qed.

Lemma read_app a : forall b st, readw (a ++ b) st = match readw a st with Some st' => readw b st' | None => None end.
Proof. induction a as [|w a IH]; intros b st; cbn [app read_words]; auto. destruct (read_word all_scales w st); auto. Qed.
Lemma sum_app a b : sum (a ++ b) = sum a + sum b.
Proof. unfold sum in *. induction a as [|x a IH]; cbn [fold_right app] in *; lia. Qed.
Lemma smaller_app q a b : Forall (fun x => x < q) a -> Forall (fun x => q <= x) b -> smaller q (a ++ b) = (a, b).
Proof.
  induction 1 as [|x a H F IH]; intros G.
  - destruct G as [|x b]; cbn; auto. destruct (x <? q) eqn:E; auto. apply Z.ltb_lt in E. lia.
  - cbn [app smaller]. rewrite (proj2 (Z.ltb_lt _ _) H). now rewrite IH.
Qed.

(** * The meaning of a piece of text *)
(** the words of [w] read as the parts [g], after any parts not smaller than [i] *)
Definition means (w : str) (i : Z) (g : list Z) : Prop :=
  sum g = i /\ Forall (fun x => 0 <= x <= i) g /\ g <> [] /\ w <> [] /\ forall st, Forall (fun x => i <= x) st -> readw (words_of w) st = Some (g ++ st).

(** scale names *)
Definition ordinal_ok (t n : str) : bool :=
  negb (last_char t =? 121)%N && nonempty t &&
  match words_of (t ++ u "th") with [n'] => match cardinal_of all_scales all_irregular n' with Some c => str_eqb c n | None => false end | _ => false end.
Definition scale_ok (p : Z * str) : bool :=
  match snd p with
  | c :: t => match words_of t with [n] => divider c && negb (str_eqb n (u "and")) && match lookup units n with None => true | _ => false end &&
                 match lookup all_scales n with Some q => q =? fst p | None => false end && ordinal_ok t n
              | _ => false end
  | [] => false
  end.
Lemma scale_read p st (a b : list Z) (s : str) : scale_ok p = true -> a <> [] -> Forall (fun x => x < fst p) a -> Forall (fun x => fst p <= x) b ->
  readw (words_of s) st = Some (a ++ b) -> readw (words_of (s ++ snd p)) st = Some (sum a * fst p :: b).
Proof.
  intros O N A B R. destruct p as [q e]. unfold scale_ok in O. cbn [fst snd] in *. destruct e as [|c t]; [discriminate|]. destruct (words_of t) as [|n [|]] eqn:W; try discriminate.
  apply andb_true_iff in O. destruct O as [O _]. apply andb_true_iff in O. destruct O as [O L]. apply andb_true_iff in O. destruct O as [O U]. apply andb_true_iff in O. destruct O as [D An]. apply negb_true_iff in An.
  rewrite words_app by auto. rewrite read_app, R, W. cbn [read_words]. unfold read_word. rewrite An. destruct (lookup units n); [discriminate|].
  destruct (lookup all_scales n) as [q'|]; [|discriminate]. apply Z.eqb_eq in L. subst q'. rewrite (smaller_app q a b A B). destruct a; [congruence|reflexivity].
Qed.
(** separators *)
Definition comma (flowery : bool) : str := if flowery then u ", " else u " ".
Definition anded (flowery : bool) : str := if flowery then u " and " else u " ".
Lemma comma_words fl (s w : str) : words_of (s ++ comma fl ++ w) = words_of s ++ words_of w.
Proof.
  destruct fl; unfold comma; [|apply words_app; reflexivity]. change (u ", " ++ w) with (44%N :: 32%N :: w). rewrite words_app by reflexivity. now rewrite words_div by reflexivity.
Qed.
Lemma anded_words fl (s w : str) : words_of (s ++ anded fl ++ w) = words_of s ++ (if fl then [u "and"] else []) ++ words_of w.
Proof.
  destruct fl; [|apply words_app; reflexivity]. unfold anded. change (u " and " ++ w) with (32%N :: (u "and" ++ 32%N :: w)). rewrite words_app by reflexivity. rewrite words_app by reflexivity. reflexivity.
Qed.
Lemma read_anded (fl : bool) (ws : list str) st : readw ((if fl then [u "and"] else []) ++ ws) st = readw ws st.
Proof. destruct fl; auto. Qed.

Section Level.
  (** the recursive call gives a numeral for smaller numbers *)
  Context (fl : bool) (wordsf : Z -> result str) (i0 B : Z).
  Hypothesis rec_ok : forall j, 1 <= j -> j * 100 <= i0 -> j < B -> exists w g, wordsf j = Ok w /\ means w j g.
  Fixpoint chain (hi : Z) (qs : list (Z * str)) : bool :=
    match qs with
    | [] => hi =? 100
    | p :: t => (100 <=? fst p) && (fst p <=? hi) && (hi <=? fst p * fst p) && (hi <=? fst p * B) && scale_ok p && chain (fst p) t
    end.
  (** what was written so far reads as [g] *)
  Definition so_far (strings : list str) (spacer : str) (hi : Z) (g : list Z) : Prop :=
    Forall (fun x => hi <= x) g /\ Forall (fun x => 0 <= x <= i0) g /\
    (forall st, Forall (fun x => i0 <= x) st -> readw (words_of (concat strings)) st = Some (g ++ st)) /\
    ((strings = [] /\ g = [] /\ spacer = []) \/ (strings <> [] /\ concat strings <> [] /\ g <> [] /\ spacer = comma fl /\ exists l p, strings = l ++ [snd p] /\ scale_ok p = true)).
  Lemma quantity_loop_spec qs : forall hi i strings spacer g, chain hi qs = true -> 0 <= i < hi -> i <= i0 -> i + sum g = i0 -> so_far strings spacer hi g ->
    exists i' strings' spacer' g', quantity_loop wordsf fl qs i strings spacer = Ok (i', strings', spacer') /\ 0 <= i' < 100 /\ i' + sum g' = i0 /\ so_far strings' spacer' 100 g' /\ (g <> [] -> g' <> []) /\
      (strings' <> [] \/ i' = i).
  Proof.
    induction qs as [|[q e] qs IH]; intros hi i strings spacer g C I Ii S F; cbn [quantity_loop].
    - cbn in C. apply Z.eqb_eq in C. subst hi. exists i, strings, spacer, g. auto 10.
    - cbn [chain fst snd] in C. repeat (apply andb_true_iff in C; destruct C as [C ?]). rename C into C1.
      match goal with H : chain q qs = true |- _ => rename H into C2 end. match goal with H : scale_ok _ = true |- _ => rename H into C3 end.
      match goal with H : (hi <=? q * B) = true |- _ => apply Z.leb_le in H; rename H into C4 end. match goal with H : (hi <=? q * q) = true |- _ => apply Z.leb_le in H; rename H into C5 end.
      match goal with H : (q <=? hi) = true |- _ => apply Z.leb_le in H; rename H into C6 end. apply Z.leb_le in C1.
      destruct F as (F1 & F2 & F3 & F4). destruct (q <=? i) eqn:Q.
      + apply Z.leb_le in Q. set (j := i / q). assert (Ej : i = q * j + i mod q) by (apply Z.div_mod; lia). pose proof (Z.mod_pos_bound i q ltac:(lia)) as Mb.
        assert (J1 : 1 <= j) by (apply Z.div_le_lower_bound; lia). assert (J2 : j * 100 <= i0) by nia.
        assert (J3 : j < q) by (apply Z.div_lt_upper_bound; nia). assert (J4 : j < B) by (apply Z.div_lt_upper_bound; nia).
        destruct (rec_ok j J1 J2 J4) as (w & gw & -> & (M1 & M2 & M3 & M4 & M5)).
        assert (Rd : forall st, Forall (fun x => i0 <= x) st -> readw (words_of (concat (strings ++ [spacer; w; e]))) st = Some (j * q :: g ++ st)).
        { intros st St. rewrite <- M1. assert (X : concat (strings ++ [spacer; w; e]) = (concat strings ++ spacer ++ w) ++ e) by (rewrite concat_app; cbn [concat]; rewrite app_nil_r; now rewrite <- !app_assoc).
          rewrite X. apply (scale_read (q, e) st gw (g ++ st)); auto.
          - eapply Forall_impl; [|exact M2]. cbn. intros; lia.
          - apply Forall_app. split; [eapply Forall_impl; [|exact F1]; cbn; intros; lia|eapply Forall_impl; [|exact St]; cbn; intros; lia].
          - assert (Y : readw (words_of w) (g ++ st) = Some (gw ++ g ++ st)).
            { apply M5. apply Forall_app. split; [eapply Forall_impl; [|exact F1]; cbn; intros; nia|eapply Forall_impl; [|exact St]; cbn; intros; nia]. }
            destruct F4 as [(-> & -> & ->)|(N1 & N2 & N3 & -> & _)].
            + cbn [concat app]. exact Y.
            + rewrite comma_words, read_app, (F3 st St). exact Y. }
        destruct (IH q (i mod q) (strings ++ [spacer; w; e]) (comma fl) (j * q :: g)) as (i' & s' & sp' & g' & E & I' & S' & F' & N' & D'); auto.
        { lia. } { cbn [sum fold_right]. fold (sum g). lia. }
        { split; [|split; [|split]].
          - constructor; [nia|]. eapply Forall_impl; [|exact F1]. cbn. intros; lia.
          - constructor; [nia|auto].
          - exact Rd.
          - right. split; [destruct strings; discriminate|]. split; [|split; [discriminate|split; auto]].
            + rewrite concat_app. cbn [concat]. intros X. apply app_eq_nil in X. destruct X as [_ X]. apply app_eq_nil in X. destruct X as [_ X]. apply app_eq_nil in X. destruct X as [X _]. contradiction.
            + exists (strings ++ [spacer; w]), (q, e). split; auto. now rewrite <- app_assoc. }
        exists i', s', sp', g'. split; [exact E|]. split; auto. split; auto. split; auto. split; [intros _; apply N'; discriminate|].
        left. destruct F' as (_ & _ & _ & [(-> & -> & _)|(X & _)]); auto. exfalso. apply N'; [discriminate|reflexivity].
      + apply Z.leb_gt in Q. destruct (IH q i strings spacer g) as (i' & s' & sp' & g' & H); auto; try lia.
        { split; [|auto]. eapply Forall_impl; [|exact F1]. cbn. intros; lia. }
        exists i', s', sp', g'. exact H.
  Qed.
End Level.

Definition unit_ok (n : Z) (w : str) : bool :=
  match words_of w with [w'] => str_eqb w' w | _ => false end && negb (str_eqb w (u "and")) && match lookup units w with Some m => m =? n | None => false end && nonempty w.
Lemma str_eqb_eq' a : forall b, str_eqb a b = true -> a = b.
Proof. induction a as [|x a IH]; intros [|y b] E; cbn in E; try discriminate; auto. apply andb_true_iff in E. destruct E as [E1 E2]. apply N.eqb_eq in E1. f_equal; auto. Qed.
Lemma unit_ok_spec n w : unit_ok n w = true -> words_of w = [w] /\ w <> [] /\ forall st, readw [w] st = Some (n :: st).
Proof.
  unfold unit_ok. intros H. repeat (apply andb_true_iff in H; destruct H as [H ?]). destruct (words_of w) as [|w' [|]] eqn:W; try discriminate. apply str_eqb_eq' in H. subst w'.
  split; auto. split; [intros ->; discriminate|]. intros st. cbn [read_words]. unfold read_word.
  match goal with X : negb _ = true |- _ => apply negb_true_iff in X; rewrite X end. destruct (lookup units w) as [m|]; [|discriminate].
  match goal with X : (m =? n) = true |- _ => apply Z.eqb_eq in X; rewrite X end. reflexivity.
Qed.
Lemma small_index {A} (l : list A) i : 0 <= i < Z.of_nat (length l) -> exists x, py_index l i = Ok x /\ nth_error l (Z.to_nat i) = Some x.
Proof.
  intros H. unfold py_index. assert (i <? 0 = false) as -> by lia. assert ((0 <=? i) && (i <? Z.of_nat (length l)) = true) as -> by lia.
  destruct (nth_error l (Z.to_nat i)) as [x|] eqn:E; eauto. apply nth_error_None in E. lia.
Qed.
Lemma cardinal_words i : 0 <= i < 20 -> exists w, py_index first_twenty_cardinal i = Ok w /\ unit_ok i w = true.
Proof.
  intros H. destruct (small_index first_twenty_cardinal i H) as (w & E & N). exists w. split; auto.
  assert (X : forallb (fun k => match nth_error first_twenty_cardinal k with Some w => unit_ok (Z.of_nat k) w | None => false end) (seq 0 20) = true) by (vm_compute; reflexivity).
  rewrite forallb_forall in X. specialize (X (Z.to_nat i) ltac:(apply in_seq; lia)). rewrite N in X. rewrite Z2Nat.id in X by lia. exact X.
Qed.
Lemma tens_words i : 20 <= i < 100 -> exists w, py_index tens (i / 10) = Ok (Some w) /\ unit_ok (i / 10 * 10) w = true.
Proof.
  intros H. assert (D : 2 <= i / 10 < 10) by (split; [apply Z.div_le_lower_bound; lia|apply Z.div_lt_upper_bound; lia]).
  destruct (small_index tens (i / 10) ltac:(cbn [length tens]; lia)) as (w & E & N).
  assert (X : forallb (fun k => match nth_error tens k with Some (Some w) => unit_ok (Z.of_nat k * 10) w | _ => false end) (seq 2 8) = true) by (vm_compute; reflexivity).
  rewrite forallb_forall in X. specialize (X (Z.to_nat (i / 10)) ltac:(apply in_seq; lia)). rewrite N in X. destruct w as [w|]; [|discriminate]. rewrite Z2Nat.id in X by lia. eauto.
Qed.

(** * The end of the numeral *)
Section Finish.
  Context (fl : bool) (i0 : Z).
  Lemma finish_spec i strings spacer g : 0 <= i < 100 -> i + sum g = i0 -> so_far fl i0 strings spacer 100 g ->
    exists strings' g', finish fl false i strings spacer = Ok strings' /\ means (concat strings') i0 g'.
  Proof.
    intros I S (F1 & F2 & F3 & F4). set (sp := if nonempty strings then anded fl else spacer).
    assert (Rd : forall (w : str) n st, unit_ok n w = true -> Forall (fun x => i0 <= x) st -> readw (words_of (concat strings ++ sp ++ w)) st = Some (n :: g ++ st)).
    { intros w n st U St. destruct (unit_ok_spec n w U) as (W & N & R). subst sp. destruct F4 as [(-> & -> & ->)|(N1 & N2 & N3 & -> & _)].
      - cbn [concat nonempty app]. rewrite W. apply R.
      - destruct strings; [congruence|]. cbn [nonempty]. rewrite anded_words, read_app, (F3 st St), read_anded, W. apply R. }
    assert (Cat : forall a b : str, concat (strings ++ [a; b]) = concat strings ++ a ++ b) by (intros a b; rewrite concat_app; cbn [concat]; now rewrite app_nil_r).
    unfold finish. change (if nonempty strings then if fl then u " and " else u " " else spacer) with sp. fold sp.
    assert (Sum : forall n r, 0 <= n -> 0 <= r -> i = n + r -> Forall (fun x => 0 <= x <= i0) g -> n <= i0 /\ r <= i0).
    { intros n r Hn Hr E Fg. assert (0 <= sum g); [|lia]. clear - Fg. induction Fg; cbn; [lia|]. fold (sum l). lia. }
    destruct (20 <=? i) eqn:T.
    - apply Z.leb_le in T. destruct (tens_words i ltac:(lia)) as (t & -> & Ut). set (n := i / 10 * 10) in *.
      assert (Ei : i = n + i mod 10) by (subst n; pose proof (Z.div_mod i 10 ltac:(lia)); lia). pose proof (Z.mod_pos_bound i 10 ltac:(lia)) as Mb. assert (Hn : 0 <= n) by lia.
      destruct (Sum n (i mod 10)) as [L1 L2]; auto; try lia.
      assert (NE : nonempty (strings ++ [sp; t]) = true) by (destruct strings; reflexivity). rewrite NE. cbn [negb]. rewrite orb_false_r. cbn [andb].
      destruct (unit_ok_spec n t Ut) as (_ & Nt & _).
      destruct (i mod 10 =? 0) eqn:Z0; cbn [negb].
      + exists (strings ++ [sp; t]), (n :: g). split; auto. apply Z.eqb_eq in Z0. split; [cbn [sum fold_right]; fold (sum g); lia|]. split; [constructor; auto; lia|]. split; [discriminate|]. split.
        * rewrite Cat. intros X. apply app_eq_nil in X. destruct X as [_ X]. apply app_eq_nil in X. destruct X. contradiction.
        * intros st St. rewrite Cat. apply Rd; auto.
      + destruct (cardinal_words (i mod 10) ltac:(lia)) as (w & -> & Uw). destruct (unit_ok_spec _ w Uw) as (W & Nw & R).
        exists ((strings ++ [sp; t]) ++ [u "-"; w]), (i mod 10 :: n :: g). split; auto. split; [cbn [sum fold_right]; fold (sum g); lia|]. split; [constructor; [lia|constructor; auto; lia]|]. split; [discriminate|].
        assert (X : concat ((strings ++ [sp; t]) ++ [u "-"; w]) = (concat strings ++ sp ++ t) ++ 45%N :: w) by (rewrite concat_app, Cat; cbn [concat]; rewrite app_nil_r; reflexivity).
        rewrite X. split; [intros Y; apply app_eq_nil in Y; destruct Y; discriminate|]. intros st St. rewrite words_app by reflexivity. rewrite W, read_app, (Rd t n st Ut St). apply R.
    - apply Z.leb_gt in T. destruct (negb (i =? 0) || negb (nonempty strings)) eqn:D.
      + destruct (cardinal_words i ltac:(lia)) as (w & -> & Uw). destruct (unit_ok_spec _ w Uw) as (W & Nw & R). destruct (Sum i 0) as [L1 L2]; auto; try lia.
        exists (strings ++ [sp; w]), (i :: g). split; auto. split; [cbn [sum fold_right]; fold (sum g); lia|]. split; [constructor; auto; lia|]. split; [discriminate|]. rewrite Cat. split.
        * intros X. apply app_eq_nil in X. destruct X as [_ X]. apply app_eq_nil in X. destruct X. contradiction.
        * intros st St. apply Rd; auto.
      + apply orb_false_iff in D. destruct D as [D1 D2]. apply negb_false_iff in D1, D2. apply Z.eqb_eq in D1. cbn [andb].
        destruct F4 as [(-> & _)|(N1 & N2 & N3 & _)]; [discriminate|]. exists strings, g. split; auto. split; [lia|]. auto.
  Qed.
End Finish.

Lemma small_chain : chain 1000 (10 ^ 12) small_quantities = true. Proof. vm_compute. reflexivity. Qed.
Lemma big_chain : chain (10 ^ 12) (10 ^ 75) quantities = true. Proof. vm_compute. reflexivity. Qed.
Definition level (n : nat) : Z := match n with O => 0 | 1%nat => 100 | 2%nat => 1000 | 3%nat => 10 ^ 12 | _ => 10 ^ 75 end.
Lemma so_far_start fl i0 hi : so_far fl i0 [] [] hi [].
Proof. split; [constructor|]. split; [constructor|]. split; auto. Qed.
(** one level: what the quantity loop hands to the end *)
Lemma level_step fl fuel i : 0 <= i < 10 ^ 75 ->
  (forall j, 1 <= j -> j * 100 <= i -> j < (if 10 ^ 12 <=? i then 10 ^ 12 else 1000) -> exists w g, int_to_words_fuel fuel j fl false = Ok w /\ means w j g) ->
  exists i' strings spacer g, (if 100 <=? i then quantity_loop (fun upper => int_to_words_fuel fuel upper fl false) fl (if 10 ^ 12 <=? i then quantities else small_quantities) i [] [] else Ok (i, [], [])) = Ok (i', strings, spacer)
    /\ 0 <= i' < 100 /\ i' + sum g = i /\ so_far fl i strings spacer 100 g.
Proof.
  intros I IH. destruct (100 <=? i) eqn:H.
  - apply Z.leb_le in H. destruct (10 ^ 12 <=? i) eqn:Bg.
    + destruct (quantity_loop_spec fl _ i (10 ^ 12) IH quantities (10 ^ 75) i [] [] [] big_chain) as (i' & s' & sp' & g' & E & I' & S' & F' & _); auto; try lia; [cbn; lia|apply so_far_start|].
      exists i', s', sp', g'. auto.
    + apply Z.leb_gt in Bg. destruct (quantity_loop_spec fl _ i 1000 IH small_quantities (10 ^ 12) i [] [] [] small_chain) as (i' & s' & sp' & g' & E & I' & S' & F' & _); auto; try lia; [cbn; lia|apply so_far_start|].
      exists i', s', sp', g'. auto.
  - apply Z.leb_gt in H. exists i, [], [], []. split; auto. split; [lia|]. split; [cbn; lia|]. apply so_far_start.
Qed.
Lemma rec_levels fl fuel i : 0 <= i < level (S fuel) -> (fuel <= 3)%nat -> (forall j, 0 <= j < level fuel -> exists w g, int_to_words_fuel fuel j fl false = Ok w /\ means w j g) ->
  forall j, 1 <= j -> j * 100 <= i -> j < (if 10 ^ 12 <=? i then 10 ^ 12 else 1000) -> exists w g, int_to_words_fuel fuel j fl false = Ok w /\ means w j g.
Proof.
  intros I L IH j J1 J2 J3. apply IH. split; [lia|].
  destruct fuel as [|[|[|[|fuel]]]]; cbn [level] in *; (destruct (10 ^ 12 <=? i) eqn:B; [apply Z.leb_le in B|]); lia.
Qed.
Lemma level_range n i : 0 <= i < level n -> 0 <= i < 10 ^ 75.
Proof. destruct n as [|[|[|[|n]]]]; cbn [level]; lia. Qed.
Lemma words_mean fl fuel : (fuel <= 4)%nat -> forall i, 0 <= i < level fuel -> exists w g, int_to_words_fuel fuel i fl false = Ok w /\ means w i g.
Proof.
  induction fuel as [|fuel IH]; intros L i I; [cbn in I; lia|]. pose proof (level_range _ _ I) as R. cbn [int_to_words_fuel].
  assert ((10 ^ 75 <=? i) || (i <=? - 10 ^ 75) = false) as -> by lia. assert (i <? 0 = false) as -> by lia.
  destruct (level_step fl fuel i R (rec_levels fl fuel i I ltac:(lia) (IH ltac:(lia)))) as (i' & strings & spacer & g & -> & I' & S' & F').
  destruct (finish_spec fl i i' strings spacer g I' S' F') as (strings' & g' & -> & M). eauto.
Qed.

(** * Ordinals *)
Notation card := (cardinal_of all_scales all_irregular).
Lemma ordinal_words i : 0 <= i < 20 -> exists w o, py_index first_twenty_cardinal i = Ok w /\ py_index first_twenty_ordinal i = Ok o /\ words_of w = [w] /\ words_of o = [o] /\ card o = Some w.
Proof.
  intros H. destruct (small_index first_twenty_cardinal i H) as (w & E & N). destruct (small_index first_twenty_ordinal i H) as (o & E' & N'). exists w, o.
  assert (X : forallb (fun k => match nth_error first_twenty_cardinal k, nth_error first_twenty_ordinal k with
     | Some w, Some o => match words_of w, words_of o, card o with [w'], [o'], Some c => str_eqb w' w && str_eqb o' o && str_eqb c w | _, _, _ => false end | _, _ => false end) (seq 0 20) = true) by (vm_compute; reflexivity).
  rewrite forallb_forall in X. specialize (X (Z.to_nat i) ltac:(apply in_seq; lia)). rewrite N, N' in X. destruct (words_of w) as [|w' [|]]; try discriminate. destruct (words_of o) as [|o' [|]]; try discriminate. destruct (card o) as [c|]; try discriminate.
  apply andb_true_iff in X. destruct X as [X X3]. apply andb_true_iff in X. destruct X as [X1 X2]. apply str_eqb_eq' in X1, X2, X3. subst. auto.
Qed.
Lemma tens_ordinals i : 20 <= i < 100 -> exists w, py_index tens (i / 10) = Ok (Some w) /\ words_of w = [w] /\ last_char w = 121%N /\
  words_of (removelast w ++ u "ieth") = [removelast w ++ u "ieth"] /\ card (removelast w ++ u "ieth") = Some w.
Proof.
  intros H. assert (D : 2 <= i / 10 < 10) by (split; [apply Z.div_le_lower_bound; lia|apply Z.div_lt_upper_bound; lia]).
  destruct (small_index tens (i / 10) ltac:(cbn [length tens]; lia)) as (w & E & N).
  assert (X : forallb (fun k => match nth_error tens k with Some (Some w) => (last_char w =? 121)%N && match words_of w, words_of (removelast w ++ u "ieth"), card (removelast w ++ u "ieth") with
     | [w'], [o'], Some c => str_eqb w' w && str_eqb o' (removelast w ++ u "ieth") && str_eqb c w | _, _, _ => false end | _ => false end) (seq 2 8) = true) by (vm_compute; reflexivity).
  rewrite forallb_forall in X. specialize (X (Z.to_nat (i / 10)) ltac:(apply in_seq; lia)). rewrite N in X. destruct w as [w|]; [|discriminate]. exists w. split; auto.
  apply andb_true_iff in X. destruct X as [Y X]. apply N.eqb_eq in Y.
  destruct (words_of w) as [|w' [|]]; try discriminate. destruct (words_of (removelast w ++ u "ieth")) as [|o' [|]]; try discriminate. destruct (card (removelast w ++ u "ieth")) as [c|]; try discriminate.
  apply andb_true_iff in X. destruct X as [X X3]. apply andb_true_iff in X. destruct X as [X1 X2]. apply str_eqb_eq' in X1, X2, X3. subst. auto.
Qed.
Lemma last_last_char (x : str) c t : last_char (x ++ c :: t) = last_char (c :: t).
Proof. unfold last_char. induction x as [|y x IH]; auto. cbn [app]. rewrite <- IH. destruct (x ++ c :: t) eqn:E; [destruct x; discriminate|reflexivity]. Qed.
Lemma finish_ordinal fl i0 i strings spacer g : 0 <= i < 100 -> so_far fl i0 strings spacer 100 g ->
  exists sc so a x y, finish fl false i strings spacer = Ok sc /\ finish fl true i strings spacer = Ok so /\
    words_of (concat sc) = a ++ [x] /\ words_of (concat so) = a ++ [y] /\ card y = Some x.
Proof.
  intros I (_ & _ & _ & F4). set (sp := if nonempty strings then anded fl else spacer).
  assert (Cat : forall a b : str, concat (strings ++ [a; b]) = concat strings ++ a ++ b) by (intros a b; rewrite concat_app; cbn [concat]; now rewrite app_nil_r).
  assert (Pre : exists A, forall w, words_of (concat strings ++ sp ++ w) = A ++ words_of w).
  { subst sp. destruct F4 as [(-> & -> & ->)|(N1 & N2 & N3 & -> & _)]; [exists []; auto|]. destruct strings; [congruence|]. cbn [nonempty]. eexists. intros w. rewrite anded_words, app_assoc. reflexivity. }
  destruct Pre as [A Pre]. unfold finish. change (if nonempty strings then if fl then u " and " else u " " else spacer) with sp. fold sp. cbv zeta.
  destruct (20 <=? i) eqn:T.
  - apply Z.leb_le in T. destruct (tens_ordinals i ltac:(lia)) as (t & -> & Wt & Yt & Wo & Ct). pose proof (Z.mod_pos_bound i 10 ltac:(lia)) as Mb.
    assert (NE : nonempty (strings ++ [sp; t]) = true) by (destruct strings; reflexivity). rewrite NE. cbn [negb]. rewrite orb_false_r. cbn [andb].
    destruct (i mod 10 =? 0) eqn:Z0; cbn [negb].
    + assert (La : last (strings ++ [sp; t]) [] = t) by (change [sp; t] with ([sp] ++ [t]); rewrite app_assoc; apply last_last). rewrite La, Yt, N.eqb_refl.
      assert (Ra : removelast (strings ++ [sp; t]) = strings ++ [sp]) by (change [sp; t] with ([sp] ++ [t]); rewrite app_assoc; apply removelast_last). rewrite Ra.
      eexists _, _, A, t, (removelast t ++ u "ieth"). split; [reflexivity|]. split; [reflexivity|]. split; [rewrite Cat, Pre, Wt; reflexivity|]. split; auto.
      rewrite <- app_assoc. cbn [app]. rewrite concat_app. cbn [concat]. rewrite app_nil_r. rewrite <- (app_assoc (removelast t)). change (u "ie" ++ u "th") with (u "ieth"). rewrite Pre, Wo. reflexivity.
    + destruct (ordinal_words (i mod 10) ltac:(lia)) as (w & o & -> & -> & Ww & Wo2 & C). eexists _, _, (A ++ [t]), w, o. split; [reflexivity|]. split; [reflexivity|].
      assert (X : forall z, concat ((strings ++ [sp; t]) ++ [u "-"; z]) = (concat strings ++ sp ++ t) ++ 45%N :: z) by (intros z; rewrite concat_app, Cat; cbn [concat]; rewrite app_nil_r; reflexivity).
      rewrite !X, !words_app by reflexivity. rewrite Pre, Wt, Ww, Wo2. auto.
  - apply Z.leb_gt in T. destruct (negb (i =? 0) || negb (nonempty strings)) eqn:D.
    + destruct (ordinal_words i ltac:(lia)) as (w & o & -> & -> & Ww & Wo2 & C). eexists _, _, A, w, o. split; [reflexivity|]. split; [reflexivity|]. rewrite !Cat, !Pre, Ww, Wo2. auto.
    + apply orb_false_iff in D. destruct D as [_ D2]. apply negb_false_iff in D2. rewrite D2. cbn [andb].
      destruct F4 as [(-> & _)|(N1 & N2 & N3 & _ & l & p & -> & O)]; [discriminate|]. rewrite last_last.
      unfold scale_ok in O. destruct (snd p) as [|c t]; [discriminate|]. destruct (words_of t) as [|n [|]] eqn:W; try discriminate.
      apply andb_true_iff in O. destruct O as [O Oo]. repeat (apply andb_true_iff in O; destruct O as [O _]). rename O into Dc.
      unfold ordinal_ok in Oo. apply andb_true_iff in Oo. destruct Oo as [Oo Wo]. apply andb_true_iff in Oo. destruct Oo as [Ly Nt]. apply negb_true_iff in Ly.
      destruct (words_of (t ++ u "th")) as [|n' [|]] eqn:W'; try discriminate. destruct (card n') as [x|] eqn:Cn; [|discriminate]. apply str_eqb_eq' in Wo. subst x.
      assert (Lc : last_char (c :: t) = last_char t) by (destruct t; [discriminate|]; apply (last_last_char [c])). rewrite Lc, Ly.
      eexists _, _, (words_of (concat l)), n, n'. split; [reflexivity|]. split; [reflexivity|].
      assert (X : forall z, concat ((l ++ [c :: t]) ++ z) = concat l ++ c :: (t ++ concat z)) by (intros z; rewrite !concat_app; cbn [concat]; rewrite app_nil_r, <- app_assoc; reflexivity).
      split; [|split; auto].
      * rewrite concat_app. cbn [concat]. rewrite app_nil_r. rewrite words_app by auto. now rewrite W.
      * rewrite X. cbn [concat]. rewrite app_nil_r, words_app by auto. now rewrite W'.
Qed.

(** * The whole numeral *)
Lemma negative_word st : read_word all_scales (u "negative") st = None. Proof. reflexivity. Qed.
Lemma means_words w i g : means w i g -> exists h t, words_of w = h :: t /\ h <> u "negative" /\ read_positive all_scales (words_of w) = Some i.
Proof.
  intros (S & _ & Ng & Nw & R). specialize (R [] (Forall_nil _)). rewrite app_nil_r in R. destruct (words_of w) as [|h t] eqn:W; [cbn in R; congruence|]. exists h, t. split; auto. split.
  - intros ->. cbn [read_words] in R. rewrite negative_word in R. discriminate.
  - unfold read_positive. rewrite R. destruct g; [congruence|]. now rewrite S.
Qed.
Lemma means_read w i g : means w i g -> read all_scales w = Some i /\ read all_scales (u "negative " ++ w) = Some (- i).
Proof.
  intros M. destruct (means_words w i g M) as (h & t & W & N & R). unfold read. split.
  - unfold read_list. rewrite W. destruct (str_eqb h (u "negative")) eqn:E; [apply str_eqb_eq' in E; contradiction|]. rewrite W in R. exact R.
  - change (u "negative " ++ w) with (u "negative" ++ 32%N :: w). rewrite words_app by reflexivity. cbn [app words_of]. change (words_of (u "negative")) with [u "negative"]. cbn [app read_list].
    change (str_eqb (u "negative") (u "negative")) with true. cbn [option_map]. now rewrite R.
Qed.
(** the two numerals of a number have the same words but for the last *)
Lemma numerals i fl : - 10 ^ 75 < i < 10 ^ 75 -> exists wc wo a x y, int_to_words i fl false = Ok wc /\ int_to_words i fl true = Ok wo /\
  read all_scales wc = Some i /\ words_of wc = a ++ [x] /\ words_of wo = a ++ [y] /\ card y = Some x.
Proof.
  intros I. unfold int_to_words. assert (L : (10 ^ 75 <=? i) || (i <=? - 10 ^ 75) = false) by lia.
  set (k := if i <? 0 then - i else i). assert (K : 0 <= k < level 4) by (subst k; cbn [level]; destruct (i <? 0) eqn:E; lia).
  pose proof (level_range _ _ K) as R.
  destruct (level_step fl 3 k R (rec_levels fl 3 k K ltac:(lia) (words_mean fl 3 ltac:(lia)))) as (i' & strings & spacer & g & E & I' & S' & F').
  destruct (finish_spec fl k i' strings spacer g I' S' F') as (sc & g' & Ec & M).
  destruct (finish_ordinal fl k i' strings spacer g I' F') as (sc' & so & a & x & y & Ec' & Eo & Wc & Wo & C). rewrite Ec in Ec'. injection Ec' as <-.
  destruct (means_read _ _ _ M) as [R1 R2].
  assert (G : forall ordinal, int_to_words_fuel 4 i fl ordinal = match finish fl ordinal i' strings spacer with Err e => Err e | Ok s => Ok (concat (if i <? 0 then u "negative " :: s else s)) end).
  { intros ordinal. cbn [int_to_words_fuel]. rewrite L. fold k. cbn [int_to_words_fuel] in E. rewrite E. reflexivity. }
  rewrite (G false), (G true), Ec, Eo. clear G. destruct (i <? 0) eqn:Ng; subst k.
  - exists (u "negative " ++ concat sc), (u "negative " ++ concat so), (u "negative" :: a), x, y. split; [reflexivity|]. split; [reflexivity|]. split; [rewrite R2; f_equal; lia|].
    change (u "negative " ++ concat sc) with (u "negative" ++ 32%N :: concat sc). change (u "negative " ++ concat so) with (u "negative" ++ 32%N :: concat so). rewrite !words_app by reflexivity. rewrite Wc, Wo. auto.
  - exists (concat sc), (concat so), a, x, y. auto 10.
Qed.
