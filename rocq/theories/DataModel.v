(** Models of [lambeq/training/dataset.py] and [lambeq/training/checkpoint.py]. *)
From Verif Require Import PyBase.
Set Implicit Arguments.

(** ** Dataset, dataset.py 32-130 *)
Record dataset (X Y : Type) := DS {
  data : list X; targets : list Y; batch_size : nat; shuffle : bool; batches_per_epoch : nat }.

(** [ceil(n / b)] for b > 0 (the code divides floats; exact here) *)
Definition ceil_div (n b : nat) : nat := (n + b - 1) / b.

(** dataset.py 66-78.  Negative batch sizes are not modelled. *)
Definition dataset_init {X Y} (data : list X) (targets : list Y) (batch_size : nat) (shuffle : bool)
  : res (dataset X Y) :=
  if negb (List.length data =? List.length targets) then Err ValueError
  else
    let bs := if batch_size =? 0 then List.length data else batch_size in
    if bs =? 0 then Err ZeroDivisionError
    else Ok (DS data targets bs shuffle (ceil_div (List.length data) bs)).

(** [range(0, n, step)] for step > 0 *)
Definition range_step (n step : nat) : list nat := map (fun i => i * step) (seq 0 (ceil_div n step)).

(** dataset.py 113-133; [rnd] is what random.shuffle does to the joint list.
    [zip( *[])] has nothing to unpack: ValueError. *)
Definition shuffle_data {X Y} (rnd : list (X * Y) -> list (X * Y)) (d : list X) (t : list Y)
  : res (list X * list Y) :=
  match rnd (combine d t) with
  | [] => Err ValueError
  | j => Ok (map fst j, map snd j)
  end.

(** dataset.py 89-111: the batches one full iteration yields.  [backend.array] is the identity. *)
Definition iterate {X Y} (rnd : list (X * Y) -> list (X * Y)) (ds : dataset X Y)
  : res (list (list X * list Y)) :=
  do (nd, nt) <- (if shuffle ds then shuffle_data rnd (data ds) (targets ds) else Ok (data ds, targets ds));
  Ok (map (fun s => let sl {A} (l : list A) := py_slice l (Some (Z.of_nat s)) (Some (Z.of_nat (s + batch_size ds))) in
                    (sl nd, sl nt))
          (range_step (List.length (data ds)) (batch_size ds))).

(** dataset.py 80-84: integer index.  [backend.array] is the identity. *)
Definition getitem {X Y} (ds : dataset X Y) (i : Z) : res (X * Y) :=
  do x <- py_index (data ds) i; do y <- py_index (targets ds) i; Ok (x, y).

(** ** Checkpoint, checkpoint.py 31-134 *)
(** a Python dict as an insertion-ordered association list *)
Definition dict (V : Type) := list (string * V).
Fixpoint dict_set {V} (d : dict V) (k : string) (v : V) : dict V :=
  match d with
  | [] => [(k, v)]
  | (k', v') :: d' => if String.eqb k k' then (k, v) :: d' else (k', v') :: dict_set d' k v
  end.
Fixpoint dict_get {V} (d : dict V) (k : string) : option V :=
  match d with
  | [] => None
  | (k', v') :: d' => if String.eqb k k' then Some v' else dict_get d' k
  end.
(** [__getitem__], checkpoint.py 62-79 *)
Definition ckp_getitem {V} (d : dict V) (k : string) : res V :=
  match dict_get d k with Some v => Ok v | None => Err KeyError end.
(** [add_many], checkpoint.py 84-94: [iter(values)] runs over the keys of a mapping *)
Definition add_many {V} (d values : dict V) : dict V :=
  fold_left (fun d kv => dict_set d (fst kv) (snd kv)) values d.

Inductive loaded (V : Type) := Loaded (d : dict V) | FileNotFound | Corrupt.
Arguments Loaded {V} d. Arguments FileNotFound {V}. Arguments Corrupt {V}.

Section Files.
  Variable V : Type.
  Variable bytes : Type.
  (** pickle.dump / pickle.load *)
  Variable enc : dict V -> list bytes.
  Variable dec : list bytes -> option (dict V).
  (** whether the directory of a path exists *)
  Variable dir_ok : string -> bool.

  (** one in-memory Checkpoint and the file system *)
  Record world := World { mem : dict V; fs : string -> option (list bytes) }.

  (** [from_file], checkpoint.py 96-117 *)
  Definition from_file (fs : string -> option (list bytes)) (path : string) : loaded V :=
    match fs path with
    | None => FileNotFound
    | Some b => match dec b with Some d => Loaded d | None => Corrupt end
    end.

  Definition write (fs : string -> option (list bytes)) (path : string) (b : list bytes) :=
    fun p => if String.eqb p path then Some b else fs p.

  (** [to_file], checkpoint.py 119-134, run to completion; [false] = FileNotFoundError *)
  Definition to_file (w : world) (path : string) : bool * world :=
    if dir_ok path then (true, World [] (write (fs w) path (enc (mem w)))) else (false, w).

  (** the file systems a crash during [to_file] can leave behind: [open(path, 'wb+')] truncates
      (line 128), then pickle.dump writes the bytes in order; any prefix may be on disk. *)
  Definition crash_states (w : world) (path : string) : list (string -> option (list bytes)) :=
    fs w :: (if dir_ok path
             then map (fun n => write (fs w) path (firstn n (enc (mem w)))) (seq 0 (S (List.length (enc (mem w)))))
             else []).

  Inductive op :=
  | Set_ (k : string) (v : V)              (* ckp[k] = v *)
  | AddMany (kvs : dict V)                 (* ckp.add_many(kvs) *)
  | ToFile (path : string)                 (* ckp.to_file(path) *)
  | FromFile (path : string).              (* ckp = Checkpoint.from_file(path) *)

  (** exceptions leave the client's variable [ckp] as it was *)
  Definition step (w : world) (o : op) : world :=
    match o with
    | Set_ k v => World (dict_set (mem w) k v) (fs w)
    | AddMany kvs => World (add_many (mem w) kvs) (fs w)
    | ToFile p => snd (to_file w p)
    | FromFile p => match from_file (fs w) p with Loaded d => World d (fs w) | _ => w end
    end.
  Definition run (ops : list op) : world := fold_left step ops (World [] (fun _ => None)).
End Files.
