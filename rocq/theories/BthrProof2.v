(** Proofs about bound inner classes in several threads: a read ends after a bounded number of steps of its own; classes that have been read stay. *)
From Verif Require Import PyStrProof BicModel BicSpec BicProof BicProof2 BthrModel BthrSpec BthrProof.

Section World.
  Context (type_attr : oid -> str -> option value) (w0 : world) (rank : oid -> cid -> nat).
  Hypothesis W0 : forall c, c < length (classes w0) -> class_ok w0 c.
  Hypothesis U : forall o, usage type_attr w0 o (rank o).
  Notation name_of := (name_of w0).
  Notation bases_of := (bases_of w0).
  Notation mro_of := (mro_of w0).
  Notation decorated := (decorated type_attr w0).
  Notation n0 := (length (classes w0)).
  Notation exec := (exec type_attr).
  Notation act := (act type_attr).
  Notation sys_ok := (sys_ok type_attr w0).
  Notation frame_ok := (frame_ok type_attr w0).
  Notation frames_ok := (frames_ok type_attr w0).
  Notation waiting := (waiting type_attr w0).
  Notation world_ok := (world_ok type_attr w0).

  (** ** The number of steps *)
  Definition most_bases : nat := list_max (map (fun c => length (c_bases c)) (classes w0)).
  Lemma most_bases_ge c : length (bases_of c) <= most_bases.
  Proof.
    unfold most_bases, BicSpec.bases_of, the_class. destruct (lt_dec c n0) as [L|G].
    - assert (Q : Forall (fun x => x <= list_max (map (fun c => length (c_bases c)) (classes w0))) (map (fun c => length (c_bases c)) (classes w0))) by (apply list_max_le; lia).
      rewrite Forall_forall in Q. apply Q. apply in_map_iff. exists (nth c (classes w0) no_class). split; [reflexivity|apply nth_In, L].
    - rewrite nth_overflow by lia. cbn. lia.
  Qed.
  Fixpoint cost (r : nat) : nat := match r with 0 => 2 + most_bases | S r => 2 + most_bases * (1 + cost r) end.
  Definition under (r : nat) : nat := match r with 0 => 0 | S r => cost r end.
  Lemma cost_under r : cost r = 2 + most_bases * (1 + under r).
  Proof. destruct r; cbn [cost under]; lia. Qed.
  Lemma cost_mono r r' : r <= r' -> cost r <= cost r'.
  Proof.
    revert r. induction r' as [|r' IH]; intros r L; [replace r with 0 by lia; lia|]. rewrite (cost_under r). destruct r as [|r]; cbn [under cost].
    - pose proof (Nat.mul_le_mono_l 1 (1 + cost r') most_bases). lia.
    - assert (Q : cost r <= cost r') by (apply IH; lia). pose proof (Nat.mul_le_mono_l (1 + cost r) (1 + cost r') most_bases). lia.
  Qed.
  Lemma cost_lt r r' : r < r' -> cost r <= under r'.
  Proof. intros L. destruct r' as [|r']; [lia|]. apply cost_mono. lia. Qed.
  Definition top_left (o : oid) (f : frame) : nat := (match f_made f with Some _ => 1 | None => 2 end) + length (f_todo f) * (1 + under (rank o (f_cls f))).
  Definition wait_left (o : oid) (f : frame) : nat := 2 + (length (f_todo f) - 1) * (1 + under (rank o (f_cls f))).
  Definition left (o : oid) (fs : list frame) : nat := match fs with [] => 0 | f :: fs => top_left o f + list_sum (map (wait_left o) fs) end.
  Lemma enter_left w own o b c : world_ok w own -> c < n0 -> top_left o (enter w b c) <= cost (rank o c).
  Proof.
    intros I L. unfold top_left, enter. cbn [f_made f_todo f_cls]. rewrite (ok_class _ _ _ _ _ I L). fold (bases_of c). rewrite cost_under. pose proof (most_bases_ge c). pose proof (Nat.mul_le_mono_r _ _ (1 + under (rank o c)) H). lia.
  Qed.
  Lemma append_left o f base todo x m : f_made f = None -> f_todo f = base :: todo -> top_left o (append f x m) = wait_left o f /\ top_left o (append f x m) < top_left o f.
  Proof. intros M E. unfold top_left, wait_left, append. cbn [f_made f_todo f_cls]. rewrite M, E. cbn [tl length]. rewrite Nat.sub_succ, Nat.sub_0_r. split; [reflexivity|]. nia. Qed.
  Lemma step_left w own o n fs : world_ok w own -> frames_ok w own o n fs ->
    match step_read type_attr w o fs with More w' fs' => left o fs' < left o fs | Finished _ _ => True end.
  Proof.
    intros I FS. destruct fs as [|f rest]; [destruct FS|]. destruct FS as (F & WT). destruct (frame_facts _ _ _ U _ _ _ _ F) as (D & L). cbn [step_read]. rewrite (ok_class _ _ _ _ _ I L). fold (name_of (f_cls f)).
    destruct (f_todo f) as [|base todo] eqn:TD.
    - destruct (f_made f) as [k|] eqn:MD.
      + destruct rest as [|g rest]; [exact Logic.I|]. inversion WT as [|? ? ? base todo' G MG TG N1 N2 WT']; subst. rewrite TG. set (w' := World _ _). unfold continue, found. destruct (c_bases (the_class w' k)) as [|b bs]; [exact Logic.I|].
        assert (Q : forall x m, left o (append g x m :: rest) < left o (f :: g :: rest)).
        { intros x m. cbn [left map list_sum fold_right]. destruct (append_left o g base todo' x m MG TG) as (-> & _). unfold top_left. rewrite MD. unfold list_sum. cbn [fold_right]. lia. }
        destruct (b =? base); apply Q.
      + destruct (linearise w _) as [mro|]; [|exact Logic.I]. cbn [left]. unfold top_left. cbn [f_made f_todo f_cls]. rewrite MD, TD. cbn [length]. lia.
    - assert (MN : f_made f = None) by (destruct (f_made f) as [k|] eqn:MD; [destruct (f_top _ _ _ _ _ _ F k MD); congruence|reflexivity]).
      assert (Q : forall x m, left o (append f x m :: rest) < left o (f :: rest)).
      { intros x m. cbn [left]. destruct (append_left o f base todo x m MN TD) as (_ & ?). lia. }
      assert (C : forall v, match continue w (found w f base v) rest with More w' fs' => left o fs' < left o (f :: rest) | Finished _ _ => True end).
      { intros v. unfold continue, found. destruct v as [[k|b c|]|]; try apply Q. destruct (c_bases (the_class w k)) as [|b bs]; [exact Logic.I|]. destruct (b =? base); apply Q. }
      destruct (todo_base _ _ _ W0 U _ _ _ _ _ _ F TD) as (J & LB). rewrite (ok_class _ _ _ _ _ I LB). fold (name_of base).
      destruct (str_eqb (name_of base) (name_of (f_cls f))) eqn:EN; [apply Q|].
      assert (NN : name_of base <> name_of (f_cls f)) by (intros R; apply str_eqb_eq in R; congruence).
      destruct (dict w o (name_of base)) as [v|] eqn:ED; [apply C|]. destruct (type_attr o (name_of base)) as [[k|d c'|]|] eqn:T; try apply C.
      pose proof (u_rank _ _ _ _ (U o) _ _ _ _ D J NN T) as RK. destruct (u_own_name _ _ _ _ (U o) _ _ _ T) as (LC & _ & _). pose proof (enter_left w own o d c' I LC) as EL. pose proof (cost_lt _ _ RK) as CL.
      cbn [left map]. unfold list_sum. cbn [fold_right]. fold (list_sum (map (wait_left o) rest)). assert (WL : wait_left o f + (1 + under (rank o (f_cls f))) = top_left o f).
      { unfold wait_left, top_left. rewrite MN, TD. cbn [length]. rewrite Nat.sub_succ, Nat.sub_0_r. nia. }
      lia.
  Qed.
  (** the read ends *)
  Definition ends (t : tid) (o : oid) (n : str) (l : list ending) : Prop := exists r, In (Ended t o n r) l.
  Lemma exec_ends t o n : forall l s own r, sys_ok s own -> s_reading s t = Some r -> r_outer r = o -> r_name r = n -> left o (r_frames r) < goes t l -> ends t o n (snd (exec l s)).
  Proof.
    induction l as [|a l IH]; intros s own r S E EO EN LT; [cbn in LT; lia|]. cbn [BthrModel.exec]. destruct (act_ok type_attr w0 rank W0 U a s own S) as (own1 & _ & _ & S1 & _).
    assert (OTHER : is_go t a = false -> s_reading (fst (act a s)) t = Some r).
    { intros G. destruct a as [t' o' n'|t'|name bases]; cbn [BthrModel.act].
      - destruct (s_reading s t') as [r'|] eqn:E'; [exact E|]. assert (NE : t <> t') by (intros ->; congruence). unfold settle. destruct (start_read type_attr (s_world s) o' n'); cbn [fst s_reading]; rewrite set_reading_other by exact NE; exact E.
      - cbn [is_go] in G. apply Nat.eqb_neq in G. destruct (s_reading s t') as [r'|] eqn:E'; [|exact E]. unfold settle. destruct (step_read _ _ _ _); cbn [fst s_reading]; rewrite set_reading_other by auto; exact E.
      - destruct (linearise (s_world s) bases); exact E. }
    destruct (is_go t a) eqn:G.
    - destruct a as [t' o' n'|t'|name bases]; try discriminate. cbn [is_go] in G. apply Nat.eqb_eq in G. subst t'. unfold goes in LT. cbn [filter is_go] in LT. rewrite Nat.eqb_refl in LT. cbn [length] in LT. fold (goes t l) in LT.
      pose proof (step_left (s_world s) own (r_outer r) (r_name r) (r_frames r) (proj1 S) (proj2 S t r E)) as SL. cbn [BthrModel.act] in *. rewrite E in *. rewrite EO, EN in *.
      unfold settle in *. destruct (step_read type_attr (s_world s) o (r_frames r)) as [w' fs'|w' v].
      + cbn [fst] in S1. destruct (exec l (Sys w' (set_reading (s_reading s) t (Some (Read o n fs'))))) as [s2 e2] eqn:EX. cbn [snd app]. change e2 with (snd (s2, e2)). rewrite <- EX.
        apply (IH _ own1 (Read o n fs') S1); [apply set_reading_same|reflexivity|reflexivity|]. cbn [r_frames]. lia.
      + destruct (exec l (Sys w' (set_reading (s_reading s) t None))) as [s2 e2]. cbn [snd]. exists v. left. reflexivity.
    - unfold goes in LT. cbn [filter] in LT. rewrite G in LT. fold (goes t l) in LT. specialize (OTHER eq_refl). destruct (act a s) as [s1 e1]. cbn [fst] in *. specialize (IH s1 own1 r S1 OTHER EO EN LT). destruct (exec l s1) as [s2 e2]. cbn [snd] in *.
      destruct IH as (v & IN). exists v. apply in_or_app. right. exact IN.
  Qed.
  (** how much is left of a read is bounded *)
  Lemma todo_len w own o f : frame_ok w own o f -> length (f_todo f) <= most_bases.
  Proof. intros F. destruct (f_part _ _ _ _ _ _ F) as (l & P). pose proof (most_bases_ge (f_cls f)) as Q. rewrite P, app_length in Q. lia. Qed.
  Lemma waiting_left w own o n b c0 : type_attr o n = Some (VWorker b c0) -> forall fs c, waiting w own o n c fs -> decorated o c = true ->
    cost (rank o c) + list_sum (map (wait_left o) fs) <= cost (rank o c0).
  Proof.
    intros T fs c H. induction H as [c E|c f fs base todo F M TD N1 N2 H IH]; intros DC.
    - cbn [map list_sum fold_right]. apply decorated_iff in DC. destruct DC as (d & DC). rewrite E, T in DC. injection DC as _ <-. lia.
    - destruct (frame_facts _ _ _ U _ _ _ _ F) as (D & L). specialize (IH D). destruct (todo_base _ _ _ W0 U _ _ _ _ _ _ F TD) as (J & LB). apply decorated_iff in DC. destruct DC as (d & DC). rewrite <- N1 in DC.
      pose proof (u_rank _ _ _ _ (U o) _ _ _ _ D J N2 DC) as RK. pose proof (cost_lt _ _ RK) as CL. pose proof (todo_len _ _ _ _ F) as TL. rewrite TD in TL. cbn [length] in TL.
      cbn [map]. unfold list_sum in *. cbn [fold_right]. unfold wait_left at 1. rewrite TD. cbn [length]. rewrite Nat.sub_succ, Nat.sub_0_r. rewrite (cost_under (rank o (f_cls f))) in IH. pose proof (Nat.mul_le_mono_r _ _ (1 + under (rank o (f_cls f))) TL). lia.
  Qed.
  Lemma frames_left w own o n b c0 fs : type_attr o n = Some (VWorker b c0) -> frames_ok w own o n fs -> left o fs <= cost (rank o c0).
  Proof.
    intros T FS. destruct fs as [|f rest]; [destruct FS|]. destruct FS as (F & WT). destruct (frame_facts _ _ _ U _ _ _ _ F) as (D & L). pose proof (waiting_left w own o n b c0 T rest _ WT D) as Q. cbn [left].
    pose proof (todo_len _ _ _ _ F) as TL. pose proof (Nat.mul_le_mono_r _ _ (1 + under (rank o (f_cls f))) TL). rewrite (cost_under (rank o (f_cls f))) in Q. unfold top_left. destruct (f_made f); lia.
  Qed.
  Lemma frames_worker w own o n fs : frames_ok w own o n fs -> exists b c0, type_attr o n = Some (VWorker b c0).
  Proof.
    destruct fs as [|f rest]; intros FS; [destruct FS|]. destruct FS as (F & WT). destruct (frame_facts _ _ _ U _ _ _ _ F) as (D & _). remember (f_cls f) as c eqn:E. clear E F. induction WT as [c E|c f' fs base todo F M TD N1 N2 H IH].
    - apply decorated_iff in D. destruct D as (d & D). rewrite E in D. eauto.
    - apply IH. destruct (frame_facts _ _ _ U _ _ _ _ F) as (D' & _). exact D'.
  Qed.

  (** ** Stability *)
  (** no call of __get__ for the name n of o is going on *)
  Definition no_frame (s : system) (o : oid) (n : str) : Prop := forall t r f, s_reading s t = Some r -> r_outer r = o -> In f (r_frames r) -> name_of (f_cls f) <> n.
  (** the names of the frames after a step: those before, and one that is not cached *)
  Lemma step_names w own o m fs n : world_ok w own -> frames_ok w own o m fs -> dict w o n <> None -> (forall f, In f fs -> name_of (f_cls f) <> n) ->
    match step_read type_attr w o fs with
    | More w' fs' => dict w' o n = dict w o n /\ forall f, In f fs' -> name_of (f_cls f) <> n
    | Finished w' _ => dict w' o n = dict w o n
    end /\ forall o', o' <> o -> match step_read type_attr w o fs with More w' _ | Finished w' _ => dict w' o' n = dict w o' n end.
  Proof.
    intros I FS HIT NF. destruct fs as [|f rest]; [destruct FS|]. destruct FS as (F & WT). destruct (frame_facts _ _ _ U _ _ _ _ F) as (D & L). cbn [step_read]. rewrite (ok_class _ _ _ _ _ I L). fold (name_of (f_cls f)).
    pose proof (NF f (or_introl eq_refl)) as NFF. assert (NFR : forall g, In g rest -> name_of (f_cls g) <> n) by (intros g J; apply NF; right; exact J).
    destruct (f_todo f) as [|base todo] eqn:TD.
    - destruct (f_made f) as [k|] eqn:MD.
      + set (w' := World (classes w) _). assert (Q : forall o', dict w' o' n = dict w o' n). { intros o'. unfold w'. cbn [dict]. destruct (set_dict_cases (dict w) o (name_of (f_cls f)) (VClass k) o' n) as [E|(_ & E)]; [exact E|congruence]. }
        destruct rest as [|g rest]; [auto|]. inversion WT as [|? ? ? base todo' G MG TG N1 N2 WT']; subst. rewrite TG. unfold continue, found. destruct (c_bases (the_class w' k)) as [|b bs]; [auto|].
        assert (P : forall x m h, In h (append g x m :: rest) -> name_of (f_cls h) <> n).
        { intros x m' h [<- |J]; [cbn [append f_cls]; apply NFR; left; reflexivity|apply NFR; right; exact J]. }
        destruct (b =? base); (split; [split; [apply Q|apply P]|auto]).
      + destruct (linearise w _) as [mro|]; [|auto]. cbn [dict]. split; [|auto]. split; [reflexivity|]. intros h [<- |J]; [exact NFF|apply NFR, J].
    - assert (P : forall x m h, In h (append f x m :: rest) -> name_of (f_cls h) <> n).
      { intros x m' h [<- |J]; [exact NFF|apply NFR, J]. }
      assert (C : forall v, match continue w (found w f base v) rest with
                            | More w' fs' => dict w' o n = dict w o n /\ forall f, In f fs' -> name_of (f_cls f) <> n
                            | Finished w' _ => dict w' o n = dict w o n end /\ forall o', o' <> o -> match continue w (found w f base v) rest with More w' _ | Finished w' _ => dict w' o' n = dict w o' n end).
      { intros v. unfold continue, found. destruct v as [[k|b c|]|]; try (split; [split; [reflexivity|apply P]|reflexivity]). destruct (c_bases (the_class w k)) as [|b bs]; [auto|]. destruct (b =? base); (split; [split; [reflexivity|apply P]|reflexivity]). }
      destruct (todo_base _ _ _ W0 U _ _ _ _ _ _ F TD) as (J & LB). rewrite (ok_class _ _ _ _ _ I LB). fold (name_of base).
      destruct (str_eqb (name_of base) (name_of (f_cls f))) eqn:EN; [split; [split; [reflexivity|apply P]|reflexivity]|].
      destruct (dict w o (name_of base)) as [v|] eqn:ED; [apply C|]. destruct (type_attr o (name_of base)) as [[k|d c'|]|] eqn:T; try apply C.
      destruct (u_own_name _ _ _ _ (U o) _ _ _ T) as (_ & NC & _). split; [|reflexivity]. split; [reflexivity|]. intros h [<- |[<- |K]]; [cbn [enter f_cls]; rewrite NC; intros Q; rewrite Q in ED; congruence|exact NFF|apply NFR, K].
  Qed.
  Lemma step_dict_other w o fs o' n : o' <> o -> match step_read type_attr w o fs with More w' _ | Finished w' _ => dict w' o' n = dict w o' n end.
  Proof.
    intros NE. assert (C : forall w r rest, match continue w r rest with More w' _ | Finished w' _ => dict w' o' n = dict w o' n end) by (intros w1 [f|e] rest; reflexivity).
    destruct fs as [|f rest]; [reflexivity|]. cbn [step_read]. destruct (f_todo f) as [|base todo].
    - destruct (f_made f) as [k|].
      + set (nm := c_name _). assert (Q : set_dict (dict w) o nm (VClass k) o' n = dict w o' n) by (destruct (set_dict_cases (dict w) o nm (VClass k) o' n) as [E|(E & _)]; [exact E|contradiction]).
        destruct rest as [|g rest]; [exact Q|]. destruct (f_todo g) as [|b bs]; [exact Q|]. set (w' := World (classes w) _). assert (Q' : dict w' o' n = dict w o' n) by exact Q. pose proof (C w' (found w' g b (Some (VClass k))) rest) as P. rewrite Q' in P. exact P.
      + destruct (linearise w _); reflexivity.
    - destruct (str_eqb _ _); [reflexivity|]. destruct (dict w o _); [apply C|]. destruct (type_attr o _) as [[| |]|]; try apply C. reflexivity.
  Qed.
  (** a name that is cached and has no call going on stays as it is *)
  Lemma act_stable a s own o n v : sys_ok s own -> dict (s_world s) o n = Some v -> no_frame s o n ->
    dict (s_world (fst (act a s))) o n = Some v /\ no_frame (fst (act a s)) o n /\ forall t r, In (Ended t o n r) (snd (act a s)) -> (exists t', a = Start t' o n) /\ r = Ok v \/ exists r0, s_reading s t = Some r0 /\ r_outer r0 = o /\ r_name r0 = n.
  Proof.
    intros S HIT NF. assert (NO : dict (s_world s) o n = Some v /\ no_frame s o n /\ forall t r, In (Ended t o n r) [] -> (exists t', a = Start t' o n) /\ r = Ok v \/ exists r0, s_reading s t = Some r0 /\ r_outer r0 = o /\ r_name r0 = n) by (split; [exact HIT|split; [exact NF|intros t r []]]).
    destruct a as [t o' n'|t|name bases]; cbn [BthrModel.act].
    - destruct (s_reading s t) as [r|] eqn:E; [exact NO|].
      assert (W : match start_read type_attr (s_world s) o' n' with More w' fs' => w' = s_world s /\ exists b c, fs' = [enter w' b c] /\ type_attr o' n' = Some (VWorker b c) /\ dict (s_world s) o' n' = None | Finished w' r => w' = s_world s /\ (o' = o -> n' = n -> r = Ok v) end).
      { unfold start_read. destruct (dict (s_world s) o' n') as [v'|] eqn:E'; [split; [reflexivity|intros -> ->; congruence]|]. destruct (type_attr o' n') as [[k|b c|]|].
        2: { split; [reflexivity|]. exists b, c. auto. }
        all: split; [reflexivity|intros -> ->; congruence]. }
      destruct (start_read type_attr (s_world s) o' n') as [w' fs'|w' r'].
      + destruct W as (-> & b & c & -> & T & MISS). cbn [settle fst snd s_world]. split; [exact HIT|]. split; [|intros t' r' []]. intros t' r' f ER EO IN. cbn [s_reading] in ER. destruct (Nat.eq_dec t' t) as [-> |NE].
        * rewrite set_reading_same in ER. injection ER as <-. cbn [r_outer r_frames] in EO, IN. subst o'. destruct IN as [<- |[]]. cbn [enter f_cls]. destruct (u_own_name _ _ _ _ (U o) _ _ _ T) as (_ & NC & _). rewrite NC. intros Q. subst n'. congruence.
        * rewrite set_reading_other in ER by exact NE. apply (NF t' r' f ER EO IN).
      + destruct W as (-> & W). cbn [settle fst snd s_world]. split; [exact HIT|]. split.
        * intros t' r0 f ER EO IN. cbn [s_reading] in ER. destruct (Nat.eq_dec t' t) as [-> |NE]; [rewrite set_reading_same in ER; discriminate|]. rewrite set_reading_other in ER by exact NE. apply (NF t' r0 f ER EO IN).
        * intros t' r0 [Q|[]]. injection Q as -> -> -> ->. left. split; [exists t'; reflexivity|apply W; reflexivity].
    - destruct (s_reading s t) as [r|] eqn:E; [|exact NO]. pose proof (proj2 S t r E) as FS. destruct r as [ro rn fs]. cbn [r_outer r_name r_frames] in *.
      destruct (Nat.eq_dec o ro) as [<- |NEO].
      + assert (HIT' : dict (s_world s) o n <> None) by congruence. destruct (step_names (s_world s) own o rn fs n (proj1 S) FS HIT') as (P & _); [intros f J; apply (NF t (Read o rn fs) f E eq_refl J)|].
        destruct (step_read type_attr (s_world s) o fs) as [w' fs'|w' r']; cbn [settle fst snd s_world].
        * destruct P as (P1 & P2). split; [congruence|]. split; [|intros t' r' []]. intros t' r' f ER EO IN. cbn [s_reading] in ER. destruct (Nat.eq_dec t' t) as [-> |NE].
          -- rewrite set_reading_same in ER. injection ER as <-. apply P2, IN.
          -- rewrite set_reading_other in ER by exact NE. apply (NF t' r' f ER EO IN).
        * split; [congruence|]. split.
          -- intros t' r0 f ER EO IN. cbn [s_reading] in ER. destruct (Nat.eq_dec t' t) as [-> |NE]; [rewrite set_reading_same in ER; discriminate|]. rewrite set_reading_other in ER by exact NE. apply (NF t' r0 f ER EO IN).
          -- intros t' r0 [Q|[]]. injection Q as -> -> ->. right. eexists. split; [exact E|auto].
      + pose proof (step_dict_other (s_world s) ro fs o n NEO) as P. destruct (step_read type_attr (s_world s) ro fs) as [w' fs'|w' r']; cbn [settle fst snd s_world].
        * split; [congruence|]. split; [|intros t' r' []]. intros t' r' f ER EO IN. cbn [s_reading] in ER. destruct (Nat.eq_dec t' t) as [-> |NE].
          -- rewrite set_reading_same in ER. injection ER as <-. cbn [r_outer] in EO. congruence.
          -- rewrite set_reading_other in ER by exact NE. apply (NF t' r' f ER EO IN).
        * split; [congruence|]. split.
          -- intros t' r0 f ER EO IN. cbn [s_reading] in ER. destruct (Nat.eq_dec t' t) as [-> |NE]; [rewrite set_reading_same in ER; discriminate|]. rewrite set_reading_other in ER by exact NE. apply (NF t' r0 f ER EO IN).
          -- intros t' r0 [Q|[]]. injection Q as -> -> -> ->. congruence.
    - destruct (linearise (s_world s) bases) as [mro|]; [|exact NO]. cbn [fst snd s_world dict]. split; [exact HIT|]. split; [exact NF|intros t r []].
  Qed.
  (** a frame for n is there as long as n is being read *)
  Lemma reading_frame s own t r : sys_ok s own -> s_reading s t = Some r -> exists f, In f (r_frames r) /\ name_of (f_cls f) = r_name r.
  Proof.
    intros S E. pose proof (proj2 S t r E) as FS. destruct (r_frames r) as [|f rest]; [destruct FS|]. destruct FS as (F & WT).
    assert (G : forall c fs, waiting (s_world s) own (r_outer r) (r_name r) c fs -> name_of c = r_name r \/ exists f, In f fs /\ name_of (f_cls f) = r_name r).
    { intros c fs H. induction H as [c Q|c g fs base todo G M TD N1 N2 H IH]; [left; exact Q|]. right. destruct IH as [IH|(h & J & Q)]; [exists g|exists h]; split; auto; [left|right]; auto. }
    destruct (G _ _ WT) as [Q|(h & J & Q)]; [exists f|exists h]; split; auto; [left|right]; auto.
  Qed.
  Lemma exec_stable : forall l s own o n v, sys_ok s own -> dict (s_world s) o n = Some v -> no_frame s o n ->
    dict (s_world (fst (exec l s))) o n = Some v /\ no_frame (fst (exec l s)) o n /\ forall t r, In (Ended t o n r) (snd (exec l s)) -> r = Ok v.
  Proof.
    induction l as [|a l IH]; intros s own o n v S HIT NF; cbn [BthrModel.exec]; [split; [exact HIT|split; [exact NF|intros t r []]]|].
    destruct (act_ok type_attr w0 rank W0 U a s own S) as (own1 & _ & _ & S1 & _). destruct (act_stable a s own o n v S HIT NF) as (H1 & N1 & E1). destruct (act a s) as [s1 e1]. cbn [fst snd] in *.
    destruct (IH s1 own1 o n v S1 H1 N1) as (H2 & N2 & E2). destruct (exec l s1) as [s2 e2]. cbn [fst snd] in *. split; [exact H2|]. split; [exact N2|]. intros t r J. apply in_app_or in J. destruct J as [J|J]; [|apply (E2 t), J].
    destruct (E1 t r J) as [(_ & Q)|(r0 & Q1 & Q2 & Q3)]; [exact Q|]. destruct (reading_frame s own t r0 S Q1) as (f & J' & Q). destruct (NF t r0 f Q1 Q2 J'). congruence.
  Qed.
  (** what is cached stays cached, though it may be another class *)
  Lemma act_keeps a s own o n : sys_ok s own -> dict (s_world s) o n <> None -> dict (s_world (fst (act a s))) o n <> None.
  Proof.
    intros S HIT. destruct a as [t o' n'|t|name bases]; cbn [BthrModel.act].
    - destruct (s_reading s t); [exact HIT|]. unfold start_read. destruct (dict (s_world s) o' n'); [exact HIT|]. destruct (type_attr o' n') as [[| |]|]; exact HIT.
    - destruct (s_reading s t) as [[ro rn fs]|]; [|exact HIT]. cbn [r_outer r_name r_frames]. generalize (s_world s) HIT. clear. intros w HIT.
      assert (C : forall w (f : result frame) rest, dict w o n <> None -> dict (s_world (fst (settle s t ro rn (continue w f rest)))) o n <> None) by (intros w1 [f|e] rest H; exact H).
      destruct fs as [|f rest]; [exact HIT|]. cbn [step_read]. destruct (f_todo f) as [|base todo].
      + destruct (f_made f) as [k|].
        * set (nm := c_name _). assert (Q : set_dict (dict w) ro nm (VClass k) o n <> None) by (unfold set_dict; destruct ((o =? ro) && str_eqb n nm); [discriminate|exact HIT]).
          destruct rest as [|g rest]; [exact Q|]. destruct (f_todo g) as [|b bs]; [exact Q|]. apply C. exact Q.
        * destruct (linearise w _); exact HIT.
      + destruct (str_eqb _ _); [exact HIT|]. destruct (dict w ro _); [apply C, HIT|]. destruct (type_attr ro _) as [[| |]|]; try (apply C, HIT). exact HIT.
    - destruct (linearise (s_world s) bases); exact HIT.
  Qed.
  Lemma exec_keeps : forall l s own o n, sys_ok s own -> dict (s_world s) o n <> None -> dict (s_world (fst (exec l s))) o n <> None.
  Proof.
    induction l as [|a l IH]; intros s own o n S HIT; cbn [BthrModel.exec]; [exact HIT|]. destruct (act_ok type_attr w0 rank W0 U a s own S) as (own1 & _ & _ & S1 & _). pose proof (act_keeps a s own o n S HIT) as H1.
    destruct (act a s) as [s1 e1]. cbn [fst] in *. specialize (IH s1 own1 o n S1 H1). destruct (exec l s1). exact IH.
  Qed.
End World.
