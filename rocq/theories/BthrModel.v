(** Reading bound inner classes in several threads: big/boundinnerclass.py:69-139, one step at a time.  Between two steps of a thread any
    number of steps of other threads can happen.  A step is a look in an attribute dictionary together with what follows without touching shared
    state; making the wrapper class; or storing it in outer.__dict__.  Python can switch threads more often than that, but only between
    actions that do not touch shared state (classes do not change once they are made, except for the wrapper before it is stored, and the class
    attributes of outer are taken not to change at all). *)
From Verif Require Export BicModel.

(** A call of _Worker.__get__ that is going on: the class it is for and whether that is a BoundInnerClass; the bases that the loop at :102 has still to do
    (the first one, while a nested __get__ runs for it); wrapper_bases[1:]; multiply_inherit; and the Wrapper once it is made *)
Record frame := Frame { f_bound : bool; f_cls : cid; f_todo : list cid; f_bases : list cid; f_multi : bool; f_made : option cid }.
(** outer.name going on in a thread, with the calls of __get__, innermost first *)
Record read := Read { r_outer : oid; r_name : str; r_frames : list frame }.
Definition tid := nat.
Record system := Sys { s_world : world; s_reading : tid -> option read }.
(** what ends: thread t reading o.n, and the outcome *)
Inductive ending := Ended (t : tid) (o : oid) (n : str) (r : result value).
(** what the scheduler picks: thread t starts to read o.n; thread t goes one step; a class statement runs somewhere *)
Inductive action := Start (t : tid) (o : oid) (n : str) | Go (t : tid) | ClassStatement (name : str) (bases : list cid).

(** big/boundinnerclass.py:93-101: the start of __get__ *)
Definition enter (w : world) (b : bool) (c : cid) : frame := Frame b c (c_bases (the_class w c)) [] false None.
(** big/boundinnerclass.py:123: wrapper_bases.append(x), the next base *)
Definition append (f : frame) (x : cid) (m : bool) : frame := Frame (f_bound f) (f_cls f) (tl (f_todo f)) (f_bases f ++ [x]) (f_multi f || m) (f_made f).
(** big/boundinnerclass.py:115-123: bound_inner_base is v *)
Definition found (w : world) (f : frame) (base : cid) (v : option value) : result frame :=
  match v with
  | Some (VClass k) => match c_bases (the_class w k) with
                       | [] => Err IndexError
                       | b :: _ => if b =? base then Ok (append f k true) else Ok (append f base false)
                       end
  | _ => Ok (append f base false)
  end.
Inductive outcome := More (w : world) (fs : list frame) | Finished (w : world) (r : result value).
Definition continue (w : world) (r : result frame) (rest : list frame) : outcome :=
  match r with Ok f => More w (f :: rest) | Err e => Finished w (Err e) end.

Section Outer.
  Context (type_attr : oid -> str -> option value).
  (** outer.name until it ends or __get__ starts *)
  Definition start_read (w : world) (o : oid) (n : str) : outcome :=
    match dict w o n with
    | Some v => Finished w (Ok v)
    | None => match type_attr o n with
              | Some (VWorker b c) => More w [enter w b c]
              | Some v => Finished w (Ok v)
              | None => Finished w (Err AttributeError)
              end
    end.
  (** one step of the innermost __get__ *)
  Definition step_read (w : world) (o : oid) (fs : list frame) : outcome :=
    match fs with
    | [] => Finished w (Err RuntimeError) (* not reached *)
    | f :: rest =>
        let name := c_name (the_class w (f_cls f)) in
        match f_todo f with
        | base :: _ =>
            let n := c_name (the_class w base) in
            (* big/boundinnerclass.py:113 *)
            if str_eqb n name then More w (append f base false :: rest)
            else match dict w o n with (* big/boundinnerclass.py:114 *)
                 | Some v => continue w (found w f base (Some v)) rest
                 | None => match type_attr o n with
                           | Some (VWorker b c) => More w (enter w b c :: f :: rest)
                           | v => continue w (found w f base v) rest
                           end
                 end
        | [] =>
            match f_made f with
            | None => (* big/boundinnerclass.py:125-132 *)
                let bases := if f_multi f then f_cls f :: f_bases f else [f_cls f] in
                match linearise w bases with
                | None => Finished w (Err TypeError)
                | Some mro =>
                    let k := length (classes w) in
                    let wrapper := Cls name bases (k :: mro) (if f_bound f then BoundTo o (f_cls f) else UnboundIn (f_cls f)) in
                    More (World (classes w ++ [wrapper]) (dict w)) (Frame (f_bound f) (f_cls f) [] (f_bases f) (f_multi f) (Some k) :: rest)
                end
            | Some k => (* big/boundinnerclass.py:137-139 *)
                let w' := World (classes w) (set_dict (dict w) o name (VClass k)) in
                match rest with
                | [] => Finished w' (Ok (VClass k))
                | g :: rest => match f_todo g with
                               | base :: _ => continue w' (found w' g base (Some (VClass k))) rest
                               | [] => Finished w' (Err RuntimeError) (* not reached *)
                               end
                end
            end
        end
    end.

  Definition set_reading (r : tid -> option read) (t : tid) (x : option read) : tid -> option read := fun t' => if t' =? t then x else r t'.
  Definition settle (s : system) (t : tid) (o : oid) (n : str) (x : outcome) : system * list ending :=
    match x with
    | More w fs => (Sys w (set_reading (s_reading s) t (Some (Read o n fs))), [])
    | Finished w r => (Sys w (set_reading (s_reading s) t None), [Ended t o n r])
    end.
  (** An action that is not possible has no effect: a thread that is reading cannot start to read, one that is not cannot go on *)
  Definition act (a : action) (s : system) : system * list ending :=
    match a with
    | Start t o n => match s_reading s t with Some _ => (s, []) | None => settle s t o n (start_read (s_world s) o n) end
    | Go t => match s_reading s t with None => (s, []) | Some r => settle s t (r_outer r) (r_name r) (step_read (s_world s) (r_outer r) (r_frames r)) end
    | ClassStatement name bases =>
        let w := s_world s in
        match linearise w bases with
        | None => (s, [])
        | Some mro => (Sys (World (classes w ++ [Cls name bases (length (classes w) :: mro) Plain]) (dict w)) (s_reading s), [])
        end
    end.
  Fixpoint exec (l : list action) (s : system) : system * list ending :=
    match l with
    | [] => (s, [])
    | a :: l => let '(s, e) := act a s in let '(s, e') := exec l s in (s, e ++ e')
    end.
End Outer.
(** no thread is reading *)
Definition idle (w : world) : system := Sys w (fun _ => None).
