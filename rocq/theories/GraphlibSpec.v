(** Python's own graphlib.TopologicalSorter (Lib/graphlib.py of CPython 3.12), the class
    that big.graph's TopologicalSorter says it is a drop-in replacement for (README.md:
    859-865).  Written down from the CPython source, independently of big; nothing here
    models code of /repo. *)
From Verif Require Import PyBase PyDict GraphModel GraphSpec.

(** _node2info: node -> (npredecessors, successors); the successors may hold a node more
    than once *)
Definition infos := dict (Z * list nat).
Definition npred (I : infos) (n : nat) : Z := match dget I n with Some (k, _) => k | None => 0%Z end.
Definition succs (I : infos) (n : nat) : list nat := match dget I n with Some (_, s) => s | None => [] end.
(** _get_nodeinfo *)
Definition get_nodeinfo (I : infos) (n : nat) : infos := if dmem n I then I else dset I n (0%Z, []).
(** add *)
Definition lib_add (I : infos) (node : nat) (preds : list nat) : infos :=
  let I := get_nodeinfo I node in
  let I := dset I node ((npred I node + Z.of_nat (length preds))%Z, succs I node) in
  fold_left (fun I p => let I := get_nodeinfo I p in dset I p (npred I p, succs I p ++ [node])) preds I.

(** _find_cycle.  The two stacks are lists with the top in front; an iterator is the list of
    what it still yields; stack[i:] + [node] is the cycle. *)
Fixpoint backtrack (stack : list nat) (its : list (list nat)) (stacki : dict nat) : option (nat * list nat * list (list nat) * dict nat) :=
  match stack, its with
  | top :: rest, (node :: it) :: its => Some (node, stack, it :: its, stacki)         (* node = itstack[-1](); break *)
  | top :: rest, [] :: its => backtrack rest its (ddel stacki top)                   (* StopIteration *)
  | _, _ => None                                                                    (* while stack: ... else: break *)
  end.
Fixpoint walk (fuel : nat) (I : infos) (node : nat) (stack : list nat) (its : list (list nat)) (seen : list nat) (stacki : dict nat) : option (option (list nat) * list nat) :=
  match fuel with
  | O => None
  | S f =>
      match (if smem node seen then dget stacki node else None) with
      | Some i => Some (Some (skipn i (rev stack) ++ [node]), seen)
      | None =>
          let '(stack, its, seen, stacki) :=
            if smem node seen then (stack, its, seen, stacki)
            else (node :: stack, succs I node :: its, sadd node seen, dset stacki node (length stack)) in
          match backtrack stack its stacki with
          | Some (node, stack, its, stacki) => walk f I node stack its seen stacki
          | None => Some (None, seen)
          end
      end
  end.
(** [fuel] bounds the rounds of the inner loop; the loop over the nodes *)
Fixpoint search (fuel : nat) (I : infos) (nodes : list nat) (seen : list nat) : option (option (list nat)) :=
  match nodes with
  | [] => Some None
  | node :: nodes =>
      if smem node seen then search fuel I nodes seen
      else match walk fuel I node [] [] seen [] with
           | Some (Some cycle, _) => Some (Some cycle)
           | Some (None, seen) => search fuel I nodes seen
           | None => None
           end
  end.
Definition enough (I : infos) : nat := S (fold_right (fun p n => length (snd (snd p)) + n) 0 I).
Definition find_cycle (I : infos) : option (option (list nat)) := search (enough I) I (dkeys I) [].
(** prepare raises CycleError *)
Definition lib_cyclic (I : infos) : bool := match find_cycle I with Some (Some _) => true | _ => false end.

(** the object after prepare: _node2info, _ready_nodes, _npassedout, _nfinished *)
Record lib := mkLib { l_info : infos; l_ready : list nat; l_passed : nat; l_finished : nat }.
Definition lib_prepared (I : infos) : lib :=
  mkLib I (map fst (filter (fun p => (fst (snd p) =? 0)%Z) I)) 0 0.
(** get_ready *)
Definition lib_get_ready (s : lib) : lib * list nat :=
  (mkLib (fold_left (fun I n => dset I n ((-1)%Z, succs I n)) (l_ready s) (l_info s))
         [] (l_passed s + length (l_ready s)) (l_finished s),
   l_ready s).
(** is_active *)
Definition lib_is_active (s : lib) : bool :=
  (l_finished s <? l_passed s)%nat || negb (match l_ready s with [] => true | _ => false end).
(** done: one successor; one node; the loop *)
Definition lib_release (st : infos * list nat) (s : nat) : infos * list nat :=
  let '(J, ready) := st in
  let k := (npred J s - 1)%Z in
  (dset J s (k, succs J s), if (k =? 0)%Z then ready ++ [s] else ready).
Definition lib_done_one (s : lib) (n : nat) : lib * result unit :=
  match dget (l_info s) n with
  | None => (s, Err ValueError)
  | Some (k, ss) =>
      if (k =? -1)%Z then
        let '(J, r) := fold_left lib_release ss (dset (l_info s) n ((-2)%Z, ss), l_ready s) in
        (mkLib J r (l_passed s) (S (l_finished s)), Ok tt)
      else if (0 <=? k)%Z || (k =? -2)%Z then (s, Err ValueError) else (s, Err AssertionError)
  end.
Definition lib_done (s : lib) (ns : list nat) : lib * result unit := for_each lib_done_one s ns.

(** the calls after prepare, by their graphlib names (get_ready = ready and is_active =
    __bool__ in big/graph.py:684-686) *)
Inductive lcall := LGetReady | LDone (ns : list nat) | LIsActive.
Definition lib_call (s : lib) (c : lcall) : lib * result value :=
  match c with
  | LGetReady => let '(s', l) := lib_get_ready s in (s', Ok (VNodes l))
  | LDone ns => let '(s', r) := lib_done s ns in (s', rmap (fun _ => VUnit) r)
  | LIsActive => (s, Ok (VBool (lib_is_active s)))
  end.
(** the whole class: what may be called before and after prepare() (Python 3.12) *)
Inductive pcall := PAdd (n : nat) (ds : list nat) | PPrepare | PCall (c : lcall).
Definition py := (bool * lib)%type.                                       (* _ready_nodes is not None; the rest *)
Definition py_start : py := (false, mkLib [] [] 0 0).
Definition py_step (s : py) (c : pcall) : py * result value :=
  let '(prepared, l) := s in
  match c with
  | PAdd n ds => if prepared then (s, Err ValueError)                     (* Nodes cannot be added after a call to prepare() *)
                 else ((false, mkLib (lib_add (l_info l) n ds) [] 0 0), Ok VUnit)
  | PPrepare => if prepared then (s, Err ValueError)                      (* cannot prepare() more than once *)
                else ((true, lib_prepared (l_info l)), if lib_cyclic (l_info l) then Err CycleError else Ok VUnit)
  | PCall c => if prepared then let '(l, r) := lib_call l c in ((true, l), r)
               else (s, Err ValueError)                                   (* prepare() must be called first *)
  end.
Fixpoint py_results (s : py) (prog : list pcall) : list (result value) :=
  match prog with [] => [] | c :: t => let '(s', r) := py_step s c in r :: py_results s' t end.

(** the calls after prepare in a program that stops at the first exception *)
Fixpoint lib_calls (s : lib) (cs : list lcall) : list (result value) :=
  match cs with
  | [] => []
  | c :: t => match lib_call s c with
              | (s', Ok x) => Ok x :: lib_calls s' t
              | (_, Err e) => [Err e]
              end
  end.
Definition lib_graph (adds : list (nat * list nat)) : infos :=
  fold_left (fun I a => lib_add I (fst a) (snd a)) adds [].
Definition lib_run (raises : bool) (adds : list (nat * list nat)) (cs : list lcall) : list (result value) :=
  map (fun _ => Ok VUnit) adds ++
  (if raises then [Err CycleError] else Ok VUnit :: lib_calls (lib_prepared (lib_graph adds)) cs).

(** static_order: while is_active: get_ready, yield from, done *)
Fixpoint lib_order (fuel : nat) (s : lib) (out : list nat) : option (result (list nat)) :=
  match fuel with
  | O => None
  | S f => if lib_is_active s then
             let '(s', l) := lib_get_ready s in
             match lib_done s' l with
             | (s'', Ok _) => lib_order f s'' (out ++ l)
             | (_, Err e) => Some (Err e)
             end
           else Some (Ok out)
  end.
Definition py_static_order (fuel : nat) (s : py) : option (result (list nat)) :=
  match py_step s PPrepare with (s, Ok _) => lib_order fuel (snd s) [] | (_, Err e) => Some (Err e) end.
Definition lib_static_order (raises : bool) (fuel : nat) (adds : list (nat * list nat)) : option (result (list nat)) :=
  if raises then Some (Err CycleError) else lib_order fuel (lib_prepared (lib_graph adds)) [].

(** the same program written for big: create the sorter, add, prepare (= check_for_cycles),
    then the calls on the sorter itself (its default view, number 0) *)
Definition big_call (c : lcall) : op :=
  match c with LGetReady => OReady 0 | LDone ns => ODone 0 ns | LIsActive => OBool 0 end.
Definition big_op (c : pcall) : op :=
  match c with PAdd n ds => OAdd 0 n ds | PPrepare => OCheck 0 | PCall c => big_call c end.
Definition big_program (adds : list (nat * list nat)) (cs : list lcall) : list op :=
  ONewGraph :: map (fun a => OAdd 0 (fst a) (snd a)) adds ++ OCheck 0 :: map big_call cs.
(** add() calls, prepare(), and then other calls (or the beginning of that) *)
Definition in_order (prog : list pcall) : Prop :=
  (exists adds, prog = map (fun a => PAdd (fst a) (snd a)) adds) \/
  exists adds cs, prog = map (fun a => PAdd (fst a) (snd a)) adds ++ PPrepare :: map PCall cs.
(** no dependency is declared twice *)
Definition no_repeats (adds : list (nat * list nat)) : Prop :=
  NoDup (flat_map (fun a : nat * list nat => map (fun d => (d, fst a)) (snd a)) adds).
Definition adds_of (prog : list pcall) : list (nat * list nat) :=
  flat_map (fun c => match c with PAdd n ds => [(n, ds)] | _ => [] end) prog.
(** what a program sees: everything up to and including the first exception *)
Fixpoint until_error (l : list (result value)) : list (result value) :=
  match l with
  | [] => []
  | Ok x :: t => Ok x :: until_error t
  | Err e :: _ => [Err e]
  end.

(** the dependencies a program declares *)
Definition declared (adds : list (nat * list nat)) (d n : nat) : Prop :=
  exists ds, In (n, ds) adds /\ In d ds.
(** equal, except that the nodes of a tuple may come in another order *)
Definition same_result (a b : result value) : Prop :=
  a = b \/ exists l l', a = Ok (VNodes l) /\ b = Ok (VNodes l') /\ Permutation l l'.
