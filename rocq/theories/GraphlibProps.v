(** C130: big's TopologicalSorter used in place of graphlib.TopologicalSorter. *)
From Verif Require Import PyBase PyDict GraphModel GraphSpec GraphlibSpec GraphProof3 GraphlibProof GraphlibCycle.
From Coq Require Import Lia.

(** Any program that builds a graph with add(), calls prepare(), and then makes any calls of
    get_ready(), done(...) and is_active() (no node twice within one done()), sees the same
    thing from both classes up to and including the first exception: the same exceptions, the
    same answers, and the same nodes from each get_ready(), possibly in another order.  Each
    call may see its own iteration order of Python sets. *)
Theorem C130_drop_in_partial : forall prog ords,
  in_order prog -> length ords = S (length prog) -> Forall set_order ords ->
  (forall ns, In (PCall (LDone ns)) prog -> NoDup ns) ->
  Forall2 same_result (until_error (results (combine ords (ONewGraph :: map big_op prog)) (mkW [] [])))
    (Ok (VGraph 0 0) :: until_error (py_results py_start prog)).
Proof. intros prog ords H1 H2 H3 H4. apply (drop_in_py False); auto. tauto. Qed.
(** If moreover no dependency is declared twice, the order is the same too. *)
Theorem C130_drop_in_identical_partial : forall prog ords, no_repeats (adds_of prog) ->
  in_order prog -> length ords = S (length prog) -> Forall set_order ords ->
  (forall ns, In (PCall (LDone ns)) prog -> NoDup ns) ->
  until_error (results (combine ords (ONewGraph :: map big_op prog)) (mkW [] [])) = Ok (VGraph 0 0) :: until_error (py_results py_start prog).
Proof. intros prog ords H1 H2 H3 H4 H5. apply (drop_in_py True); auto. Qed.
(** and static_order() produces the same sequence, or raises in both *)
Theorem C130_static_order_identical_partial : forall adds ords ord fuel,
  no_repeats adds -> length ords = S (length adds) -> set_order ord ->
  let w := snd (play (combine ords (ONewGraph :: map (fun a => OAdd 0 (fst a) (snd a)) adds)) [] (mkW [] [])) in
  option_map snd (static_order ord (S fuel) w 0) = py_static_order (S fuel) (false, mkLib (lib_graph adds) [] 0 0).
Proof. intros. now apply static_order_py. Qed.
(** A program that does not keep to this order gets a ValueError from graphlib. *)
Theorem C130_out_of_order : forall prog, in_order prog \/ In (Err ValueError) (py_results py_start prog).
Proof. apply out_of_order_raises. Qed.
(** prepare() raises in graphlib exactly if the dependencies have a cycle (as check_for_cycles does in big, C17) *)
Theorem C130_graphlib_finds_cycles : forall adds, lib_cyclic (lib_graph adds) = true <-> ~ acyclic (declared adds).
Proof. apply lib_cyclic_correct. Qed.

(** The restrictions are needed.  (a) A dependency declared twice: add(2,1); add(3,1);
    add(2,1); prepare(); get_ready(); done(1); get_ready() -> (2, 3) here, (3, 2) there. *)
Definition ident (l : list nat) : list nat := l.
Definition graphlib_program (adds : list (nat * list nat)) (cs : list lcall) : list pcall := map (fun a => PAdd (fst a) (snd a)) adds ++ PPrepare :: map PCall cs.
Definition in_big (prog : list pcall) : list (result value) := results (map (fun o => (ident, o)) (ONewGraph :: map big_op prog)) (mkW [] []).
Definition in_graphlib (prog : list pcall) : list (result value) := py_results py_start prog.
Theorem C130_repeated_dependency_refuted :
  in_big (graphlib_program [(2, [1]); (3, [1]); (2, [1])] [LGetReady; LDone [1]; LGetReady]) =
    [Ok (VGraph 0 0); Ok VUnit; Ok VUnit; Ok VUnit; Ok VUnit; Ok (VNodes [1]); Ok VUnit; Ok (VNodes [2; 3])] /\
  in_graphlib (graphlib_program [(2, [1]); (3, [1]); (2, [1])] [LGetReady; LDone [1]; LGetReady]) =
    [Ok VUnit; Ok VUnit; Ok VUnit; Ok VUnit; Ok (VNodes [1]); Ok VUnit; Ok (VNodes [3; 2])].
Proof. split; reflexivity. Qed.
(** (b) The same node twice in one done(): graphlib raises ValueError, big does not. *)
Theorem C130_done_twice_refuted :
  in_big (graphlib_program [(1, [])] [LGetReady; LDone [1; 1]]) =
    [Ok (VGraph 0 0); Ok VUnit; Ok VUnit; Ok (VNodes [1]); Ok VUnit] /\
  in_graphlib (graphlib_program [(1, [])] [LGetReady; LDone [1; 1]]) = [Ok VUnit; Ok VUnit; Ok (VNodes [1]); Err ValueError].
Proof. split; reflexivity. Qed.
(** (c) Carrying on after the CycleError: graphlib still hands out what it can ("if the user
    wants to catch the CycleError, that's fine"), big raises it again. *)
Theorem C130_after_cycle_error_refuted :
  in_big (graphlib_program [(1, [1]); (2, [])] [LGetReady]) =
    [Ok (VGraph 0 0); Ok VUnit; Ok VUnit; Err CycleError; Err CycleError] /\
  in_graphlib (graphlib_program [(1, [1]); (2, [])] [LGetReady]) = [Ok VUnit; Ok VUnit; Err CycleError; Ok (VNodes [2])].
Proof. split; reflexivity. Qed.
(** (d) graphlib wants add() before prepare(), prepare() once, and the other calls after it; big does not. *)
Theorem C130_order_of_calls_refuted :
  in_big [PPrepare; PAdd 1 []] = [Ok (VGraph 0 0); Ok VUnit; Ok VUnit] /\ in_graphlib [PPrepare; PAdd 1 []] = [Ok VUnit; Err ValueError] /\
  in_big [PPrepare; PPrepare] = [Ok (VGraph 0 0); Ok VUnit; Ok VUnit] /\ in_graphlib [PPrepare; PPrepare] = [Ok VUnit; Err ValueError] /\
  in_big [PAdd 1 []; PCall LGetReady] = [Ok (VGraph 0 0); Ok VUnit; Ok (VNodes [1])] /\ in_graphlib [PAdd 1 []; PCall LGetReady] = [Ok VUnit; Err ValueError].
Proof. repeat split; reflexivity. Qed.

(** the hypotheses are met by a real program: 3 needs 1 and 2, 4 needs 3 *)
Definition ex_prog : list pcall := graphlib_program [(3, [1; 2]); (4, [3]); (5, [])] [LGetReady; LIsActive; LDone [2; 5]; LGetReady; LDone [1]; LGetReady; LDone [4]].
Example C130_ex :
  in_order ex_prog /\ no_repeats (adds_of ex_prog) /\ (forall ns, In (PCall (LDone ns)) ex_prog -> NoDup ns) /\
  until_error (in_big ex_prog) = Ok (VGraph 0 0) :: until_error (in_graphlib ex_prog) /\
  in_graphlib ex_prog = [Ok VUnit; Ok VUnit; Ok VUnit; Ok VUnit; Ok (VNodes [1; 2; 5]); Ok (VBool true); Ok VUnit; Ok (VNodes []); Ok VUnit; Ok (VNodes [3]); Err ValueError] /\
  py_static_order 9 (false, mkLib (lib_graph [(3, [1; 2]); (4, [3]); (5, [])]) [] 0 0) = Some (Ok [1; 2; 5; 3; 4]) /\
  find_cycle (lib_graph [(1, [2]); (2, [3]); (3, [1]); (4, [1])]) = Some (Some [1; 3; 2; 1]).
Proof.
  split; [right; eexists; eexists; reflexivity|]. split; [unfold no_repeats; cbn; repeat constructor; cbn; intuition congruence|].
  split; [intros ns I; cbn in I; repeat (destruct I as [I|I]; [try discriminate I; injection I as <-; repeat constructor; cbn; intuition congruence|]); destruct I|].
  repeat split; reflexivity.
Qed.
Print Assumptions C130_drop_in_partial.
Print Assumptions C130_drop_in_identical_partial.
Print Assumptions C130_static_order_identical_partial.
Print Assumptions C130_out_of_order.
Print Assumptions C130_graphlib_finds_cycles.
Print Assumptions C130_order_of_calls_refuted.
