(** Specification for PoModel.v (C94-C96). Nothing here models repository code. *)
From Verif Require Import PyBase PoModel.
Set Implicit Arguments. Unset Strict Implicit.

(** a contraction problem: every edge is listed once, with a size *)
Definition proper (p : problem) : Prop := exists l, p_edges p = Some l /\ NoDup l /\
  (forall e, In e l -> exists n, p_size p e = Some n) /\ (forall s e, In s (p_inputs p) -> In e s -> In e l) /\ (forall e, In e (p_output p) -> In e l).
(** the same problem up to the names of the edges and the iteration order of the sets *)
Definition same_up_to_names (p q : problem) : Prop := exists f l, p_edges p = Some l /\ p_edges q = Some (map f l) /\
  (forall a b, In a l -> In b l -> f a = f b -> a = b) /\ (forall e, In e l -> p_size q (f e) = p_size p e) /\
  Forall2 (fun s t => Permutation (map f s) t) (p_inputs p) (p_inputs q) /\ Permutation (map f (p_output p)) (p_output q).

(** what happens to an optimizer: a call, saving to a checkpoint, restoring from it, a new process reading the file *)
Inductive event := Call (p : problem) (limit : option nat) | Store | Restore | Restart.
Section Hist.
  Variables (sym : nat -> nat) (search : problem -> option nat -> res path).
  (** the optimizer, the entry of the checkpoint, and the answers so far; a restart that raises ends the history *)
  Definition happen (st : optimizer * option cache * list (problem * res path)) (e : event) : res (optimizer * option cache * list (problem * res path)) :=
    let '(o, ckp, log) := st in
    match e with
    | Call p limit => let '(o', r) := opt_call sym search o p limit in Ok (o', ckp, log ++ [(p, r)])
    | Store => Ok (o, opt_store o ckp, log)
    | Restore => Ok (opt_restore o ckp, ckp, log)
    | Restart => do o' <- opt_init (o_file o) (o_save o) (o_limit o); Ok (o', ckp, log)
    end.
  Definition history (o : optimizer) (es : list event) := foldM happen es (o, None, []).
End Hist.

(** pairs of different positions that reduce [n] nodes to one *)
Fixpoint good_path (n : nat) (p : path) : Prop :=
  match p with
  | [] => n = 1
  | [a; b] :: p' => a < n /\ b < n /\ a <> b /\ good_path (n - 1) p'
  | _ => False
  end.
Section Net.
  Variables (K : Type) (kzero kone : K) (kadd kmul : K -> K -> K) (dim : nat -> nat).
  (** a tensor reads the indices of its own edges only; no edge from a node to itself *)
  Definition node_ok (n : node K) : Prop := NoDup (n_edges n) /\ forall r r', (forall e, In e (n_edges n) -> r e = r' e) -> n_val n r = n_val n r'.
  (** every edge joins two nodes or is dangling *)
  Definition net_ok (ns : list (node K)) : Prop := Forall node_ok ns /\ forall e, occ e (all_edges ns) <= 2.
  Definition inner (ns : list (node K)) : list nat := nodup Nat.eq_dec (filter (fun e => occ e (all_edges ns) =? 2) (all_edges ns)).
  (** the value of a network: the sum over the indices of all inner edges of the product of the entries *)
  Definition net_value (ns : list (node K)) : env -> K := sum_edges kzero kadd dim (inner ns) (fun r => fold_right (fun n acc => kmul (n_val n r) acc) kone ns).
End Net.
