(** PEP 440, independently of the code: which strings are versions, and how versions are
    ordered (https://packaging.python.org/en/latest/specifications/version-specifiers/). *)
From Verif Require Import PyStr VersionModel.

(** ---- which strings are versions ---- *)
Definition all_of (p : chr -> bool) (s : str) : Prop := forallb p s = true.
Definition digits (s : str) : Prop := s <> [] /\ all_of is_digit s.
(** at most one of - _ . *)
Definition sep01 (s : str) : Prop := s = [] \/ exists c, is_sep c = true /\ s = [c].
(** case-insensitively one of the words *)
Definition word (l : list str) (s : str) : Prop := exists w, In w l /\ Forall2 (fun c d => ci c d = true) w s.
(** an optional number *)
Definition num01 (o : option str) (s : str) : Prop :=
  match o with None => s = [] | Some n => s = n /\ digits n end.
(** dot-separated numbers; segments of a local version *)
Definition dotted (s : str) : Prop := Forall digits (split1 (fun c => (c =? 46)%N) s).
Definition segments (s : str) : Prop := Forall (fun x => x <> [] /\ all_of is_alnum x) (split1 is_sep s).

(** the parts of a version string.  For post and dev, [Some None] is a marker without a
    number. *)
Record parts := mkP {
  p_epoch : option str; p_release : str; p_pre : option (str * option str);
  p_post : option (option str); p_dev : option (option str); p_local : option str }.

Definition epoch_text (o : option str) (s : str) : Prop :=
  match o with None => s = [] | Some e => digits e /\ s = e ++ [33%N] end.
Definition pre_text (o : option (str * option str)) (s : str) : Prop :=
  match o with
  | None => s = []
  | Some (l, n) => exists a b d, s = a ++ l ++ b ++ d /\ sep01 a /\ word [u "a"; u "b"; u "c"; u "rc"; u "alpha"; u "beta"; u "pre"; u "preview"] l /\ sep01 b /\ num01 n d
  end.
Definition post_text (o : option (option str)) (s : str) : Prop :=
  match o with
  | None => s = []
  | Some n => (exists d, n = Some d /\ digits d /\ s = 45%N :: d)
              \/ exists a l b d, s = a ++ l ++ b ++ d /\ sep01 a /\ word [u "post"; u "rev"; u "r"] l /\ sep01 b /\ num01 n d
  end.
Definition dev_text (o : option (option str)) (s : str) : Prop :=
  match o with
  | None => s = []
  | Some n => exists a l b d, s = a ++ l ++ b ++ d /\ sep01 a /\ word [u "dev"] l /\ sep01 b /\ num01 n d
  end.
Definition local_text (o : option str) (s : str) : Prop :=
  match o with None => s = [] | Some l => segments l /\ s = 43%N :: l end.
(** [pep440 s p]: s is a version string with parts p, possibly surrounded by whitespace
    and prefixed with a v *)
Definition pep440 (s : str) (p : parts) : Prop :=
  exists w1 v e r a b d l w2,
    s = w1 ++ v ++ e ++ p_release p ++ a ++ b ++ d ++ l ++ w2 /\ r = p_release p /\
    all_of is_space w1 /\ (v = [] \/ word [u "v"] v) /\ epoch_text (p_epoch p) e /\ dotted r /\
    pre_text (p_pre p) a /\ post_text (p_post p) b /\ dev_text (p_dev p) d /\ local_text (p_local p) l /\ all_of is_space w2.

(** ---- the order ---- *)
(** numbers; an absent number after a marker is 0 *)
Definition num (o : option str) : Z := match o with None => 0%Z | Some d => int_of d end.
(** a value that may be minus or plus infinity *)
Inductive ext (A : Type) := NegInf | Val (a : A) | PosInf.
Arguments NegInf {A}. Arguments Val {A}. Arguments PosInf {A}.
Definition ext_lt {A} (lt : A -> A -> Prop) (x y : ext A) : Prop :=
  match x, y with
  | NegInf, NegInf => False | NegInf, _ => True | Val a, Val b => lt a b | Val _, PosInf => True | _, _ => False
  end.
(** lexicographic orders *)
Inductive lex {A} (lt : A -> A -> Prop) : list A -> list A -> Prop :=
| lex_nil y t : lex lt [] (y :: t)
| lex_hd x y s t : lt x y -> lex lt (x :: s) (y :: t)
| lex_tl x s t : lex lt s t -> lex lt (x :: s) (x :: t).
(** remove trailing zeros: the shortest list that gives back l with zeros appended *)
Fixpoint significant (l : list Z) : list Z :=
  match l with
  | [] => []
  | x :: t => match significant t with
              | [] => if (x =? 0)%Z then [] else [x]
              | t' => x :: t'
              end
  end.
Definition pep_release (p : parts) : list Z := significant (map int_of (split1 (fun c => (c =? 46)%N) (p_release p))).
(** alpha < beta < candidate; the label's first letter decides (c, rc, pre, preview are
    candidates) *)
Definition lower (c : chr) : chr := if between 65 90 c then (c + 32)%N else c.
Definition pre_phase (l : str) : Z :=
  match l with c :: _ => if (lower c =? 97)%N then 1%Z else if (lower c =? 98)%N then 2%Z else 3%Z | [] => 3%Z end.
(** dev releases of the release itself sort before its pre-releases, which sort before it *)
Definition pep_pre (p : parts) : ext (Z * Z) :=
  match p_pre p, p_post p, p_dev p with
  | Some (l, n), _, _ => Val (pre_phase l, num n)
  | None, None, Some _ => NegInf
  | None, _, _ => PosInf
  end.
Definition pep_post (p : parts) : ext Z := match p_post p with None => NegInf | Some n => Val (num n) end.
Definition pep_dev (p : parts) : ext Z := match p_dev p with None => PosInf | Some n => Val (num n) end.
(** local segments: numeric ones after alphanumeric ones; case is ignored *)
Definition pep_seg (s : str) : ext Z * str :=
  if match s with [] => false | _ => forallb is_digit s end then (Val (int_of s), []) else (NegInf, map lower s).
Definition pep_local (p : parts) : list (ext Z * str) :=
  match p_local p with None => [] | Some l => map pep_seg (split1 is_sep l) end.
Definition pair_lt {A B} (la : A -> A -> Prop) (lb : B -> B -> Prop) (x y : A * B) : Prop :=
  la (fst x) (fst y) \/ (fst x = fst y /\ lb (snd x) (snd y)).
(** v precedes w *)
Definition pep_lt (v w : parts) : Prop :=
  let num_e p := match p_epoch p with None => 0%Z | Some e => int_of e end in
  pair_lt Z.lt (pair_lt (lex Z.lt) (pair_lt (ext_lt (pair_lt Z.lt Z.lt)) (pair_lt (ext_lt Z.lt) (pair_lt (ext_lt Z.lt)
    (lex (pair_lt (ext_lt Z.lt) (lex N.lt)))))))
    (num_e v, (pep_release v, (pep_pre v, (pep_post v, (pep_dev v, pep_local v)))))
    (num_e w, (pep_release w, (pep_pre w, (pep_post w, (pep_dev w, pep_local w))))).

(** ---- forms on which big agrees with that order ---- *)
(** no upper-case letter in the local version *)
Definition no_upper (p : parts) : Prop := match p_local p with None => True | Some l => map lower l = l end.
(** .post and .dev, if present, carry a number *)
Definition explicit (p : parts) : Prop := p_post p <> Some None /\ p_dev p <> Some None.
(** a dev-release of the release itself *)
Definition pure_dev (p : parts) : Prop := p_pre p = None /\ p_post p = None /\ p_dev p <> None.
