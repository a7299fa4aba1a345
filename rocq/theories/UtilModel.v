(** Models of [lambeq/core/utils.py] (normalise_duration) and
    [lambeq/backend/numerical_backend.py] (backend context manager). *)
From Coq Require Import QArith Qround.
From Verif Require Import PyBase.
Set Implicit Arguments.

(** ** normalise_duration, core/utils.py 49-97.
    Durations are exact rationals (the code uses floats; rounding of the intermediate float
    subtractions is not modelled). *)
Inductive token :=
| Days (n : Z) | Hours (n : Z) | Minutes (n : Z)
| Secs (n : Z)          (* [round(secs):.0f] *)
| Cents (n : Z).        (* [secs:.2f]: n hundredths of a second *)

(** Python [round]: half to even *)
Definition py_round (q : Q) : Z :=
  let f := Qfloor q in
  let r := Qminus q (inject_Z f) in
  if Qle_bool (1 # 2) r
  then if Qeq_bool (1 # 2) r then (if Z.even f then f else f + 1)%Z else (f + 1)%Z
  else f.

(** lines 73-97; [None] gives the string 'None' and is not a duration *)
Definition normalise_duration (duration_secs : Q) : list token :=
  let days := Qfloor (duration_secs / inject_Z 86400)%Q in
  let d1 := (duration_secs - inject_Z (days * 86400))%Q in
  let hours := Qfloor (d1 / inject_Z 3600)%Q in
  let d2 := (d1 - inject_Z (hours * 3600))%Q in
  let minutes := Qfloor (d2 / inject_Z 60)%Q in
  let secs := (d2 - inject_Z (minutes * 60))%Q in
  let out := (if (days =? 0)%Z then [] else [Days days])
          ++ (if (hours =? 0)%Z then [] else [Hours hours])
          ++ (if (minutes =? 0)%Z then [] else [Minutes minutes]) in
  match out with
  | [] => [Cents (py_round (secs * inject_Z 100)%Q)]
  | _ => out ++ [Secs (py_round secs)]
  end.

(** ** numerical_backend.py 84-145 *)
(** [_stack] (top first) and [_cache] (names already instantiated) *)
Record bstate := BS { stack : list string; cache : list string }.

(** client programs: what code between and inside [with backend(...)] blocks can do *)
Inductive prog :=
| Skip
| Seq (p q : prog)
| SetBackend (name : string)                   (* set_backend, lines 119-127 *)
| Get                                          (* get_backend, lines 130-141 *)
| Raise (e : exn)                              (* any exception in client code *)
| Try (p : prog)                               (* try: p except Exception: pass *)
| With (name : option string) (body : prog).   (* with backend(name): body *)

Section Backend.
  (** result of [BACKENDS[name]()]: importing the library may fail *)
  Variable load : string -> res unit.

  (** [name or _stack[-1]]: the empty string is falsy *)
  Definition resolve_name (name : option string) (s : list string) : string :=
    match name with
    | Some n => if String.eqb n "" then hd ""%string s else n
    | None => hd ""%string s
    end.
  (** lines 101-111: entering; pops again when the import fails ([finally]) *)
  Definition enter (name : option string) (st : bstate) : res unit * bstate * string :=
    let n := resolve_name name (stack st) in
    if existsb (String.eqb n) (cache st) then (Ok tt, BS (n :: stack st) (cache st), n)
    else match load n with
         | Ok _ => (Ok tt, BS (n :: stack st) (n :: cache st), n)
         | Err e => (Err e, st, n)
         end.
  (** lines 112-113 *)
  Definition leave (st : bstate) : bstate := BS (tl (stack st)) (cache st).
  (** lines 119-127: [_stack[-1] = name] *)
  Definition set_top (name : string) (st : bstate) : bstate :=
    BS (match stack st with [] => [] | _ :: s => name :: s end) (cache st).
  (** lines 130-141: the backend object returned is identified by its name *)
  Definition get_backend (st : bstate) : res string * bstate :=
    match enter None st with
    | (Ok _, st', n) => (Ok n, leave st')
    | (Err e, st', _) => (Err e, st')
    end.

  (** the trace records, for every executed [Get], what it returned *)
  Fixpoint exec (p : prog) (st : bstate) : res unit * bstate * list (res string) :=
    match p with
    | Skip => (Ok tt, st, [])
    | Seq p q =>
        match exec p st with
        | (Ok _, st', t) => let '(r, st'', t') := exec q st' in (r, st'', t ++ t')
        | r => r
        end
    | SetBackend n => (Ok tt, set_top n st, [])
    | Get => let '(r, st') := get_backend st in (rmap (fun _ => tt) r, st', [r])
    | Raise e => (Err e, st, [])
    | Try p => let '(_, st', t) := exec p st in (Ok tt, st', t)
    | With name body =>
        match enter name st with
        | (Ok _, st', _) => let '(r, st'', t) := exec body st' in (r, leave st'', t)
        | (Err e, st', _) => (Err e, st', [])
        end
    end.
End Backend.
