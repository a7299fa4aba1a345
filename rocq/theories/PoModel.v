(** Model of [lambeq/training/tn_path_optimizer.py]: the cache of contraction paths, and the contraction along a path.
    Edges are natural numbers (their identity). What other libraries do is a parameter or is modelled as follows: [oe.get_symbol] is a function
    [sym] from positions to symbols (natural numbers, ordered as such); the optimiser of opt_einsum is an arbitrary function;
    [contract_between] of tensornetwork sums over all shared edges, the new node having the remaining edges of the first, then of
    the second; on a node with itself it sums over its trace edges. Numerical values are an arbitrary type.
    Pickle is left out: a file is missing, a directory, truncated to nothing, cut off, or holds a dictionary. *)
From Verif Require Import PyBase.
Set Implicit Arguments. Unset Strict Implicit.

(** ** 151-300: [CachedTnPathOptimizer] *)
(** the arguments of [__call__]; a set is the list of its elements in iteration order, [size_dict] a function on its keys *)
Record problem := Problem { p_inputs : list (list nat); p_output : list nat; p_size : nat -> option nat; p_edges : option (list nat) }.
Definition path := list (list nat).
Definition key := (list (list nat) * list nat * list (nat * nat))%type.

Fixpoint insert_nat (x : nat) (l : list nat) : list nat := match l with [] => [x] | y :: l' => if x <=? y then x :: l else y :: insert_nat x l' end.
Fixpoint sort_nat (l : list nat) : list nat := match l with [] => [] | x :: l' => insert_nat x (sort_nat l') end.
Fixpoint lists_eqb (a b : list nat) : bool := match a, b with [], [] => true | x :: a', y :: b' => (x =? y) && lists_eqb a' b' | _, _ => false end.
Fixpoint all_eqb {A} (f : A -> A -> bool) (a b : list A) : bool := match a, b with [], [] => true | x :: a', y :: b' => f x y && all_eqb f a' b' | _, _ => false end.
Definition key_eqb (a b : key) : bool :=
  let '(i, o, s) := a in let '(i', o', s') := b in
  all_eqb lists_eqb i i' && lists_eqb o o' && all_eqb (fun p q => (fst p =? fst q) && (snd p =? snd q)) s s'.
Definition cache := list (key * path).
Fixpoint cache_get (k : key) (c : cache) : option path := match c with [] => None | (k', p) :: c' => if key_eqb k k' then Some p else cache_get k c' end.
(** [{**self.cached_paths, **new_paths}] with one new path *)
Definition cache_add (k : key) (p : path) (c : cache) : cache :=
  if match cache_get k c with Some _ => true | None => false end then map (fun kp => if key_eqb k (fst kp) then (fst kp, p) else kp) c else c ++ [(k, p)].

(** what is at [save_file] *)
Inductive file := Missing | Directory | Truncated | CutOff | Holds (c : cache).
(** [filepath] is None or given *)
Record optimizer := Opt { o_cache : cache; o_file : option file; o_save : bool; o_limit : option nat }.

(** 204-220 [__init__]; [f] is what is at the path of [save_file]; an exception other than FileNotFoundError and EOFError is passed on
    (reading a directory is an IsADirectoryError, reading a file cut off an UnpicklingError) *)
Definition opt_init (f : option file) (save : bool) (limit : option nat) : res optimizer :=
  match f with
  | None => Ok (Opt [] None save limit)
  | Some (Holds c) => Ok (Opt c (Some (Holds c)) save limit)
  | Some Missing => Ok (Opt [] (Some Directory) save limit)
  | Some Truncated => Ok (Opt [] (Some Truncated) save limit)
  | Some Directory => Err OtherError
  | Some CutOff => Err OtherError
  end.

Section Cache.
  Variable sym : nat -> nat.
  (** the optimiser of opt_einsum, given a memory limit *)
  Variable search : problem -> option nat -> res path.
  (** [edge_map[e]]: the dictionary keeps the last position of an edge *)
  Fixpoint edge_pos (e : nat) (i : nat) (l : list nat) : option nat :=
    match l with [] => None | x :: l' => match edge_pos e (S i) l' with Some j => Some j | None => if x =? e then Some i else None end end.
  Definition edge_sym (l : list nat) (e : nat) : res nat := match edge_pos e 0 l with Some i => Ok (sym i) | None => Err KeyError end.
  (** 230-256 *)
  Definition make_key (p : problem) : res key :=
    match p_edges p with
    | None => Err ValueError
    | Some l =>
        do sizes <- mapM (fun e => do s <- edge_sym l e; match p_size p e with Some n => Ok (s, n) | None => Err KeyError end) l;
        do ins <- mapM (fun s => do t <- mapM (edge_sym l) s; Ok (sort_nat t)) (p_inputs p);
        do out <- mapM (edge_sym l) (p_output p);
        Ok (ins, sort_nat out, sizes)
    end.
  (** 275-285 [add_paths]: the cache, then the file *)
  Definition add_path (k : key) (p : path) (o : optimizer) : optimizer * res unit :=
    let c := cache_add k p (o_cache o) in
    match o_file o with
    | None => (Opt c None (o_save o) (o_limit o), Ok tt)
    | Some Directory => (Opt c (Some Directory) (o_save o) (o_limit o), Err OtherError)
    | Some _ => (Opt c (Some (Holds c)) (o_save o) (o_limit o), Ok tt)
    end.
  (** what a process killed during [add_paths] leaves at the file: [open(.., 'wb')] truncates it, then the dictionary is written piece by piece *)
  Definition add_crash (k : key) (p : path) (o : optimizer) : list (option file) :=
    match o_file o with
    | None => [None]
    | Some Directory => [Some Directory]
    | Some f => [Some f; Some Truncated; Some CutOff; Some (Holds (cache_add k p (o_cache o)))]
    end.
  (** 222-273 [__call__]; 133-148: [memory_limit or self.memory_limit] *)
  Definition or_limit (a b : option nat) : option nat := match a with Some (S n) => Some (S n) | _ => b end.
  Definition opt_call (o : optimizer) (p : problem) (limit : option nat) : optimizer * res path :=
    match make_key p with
    | Err e => (o, Err e)
    | Ok k =>
        match cache_get k (o_cache o) with
        | Some q => (o, Ok q)
        | None =>
            match search p (or_limit limit (o_limit o)) with
            | Err e => (o, Err e)
            | Ok q =>
                let '(o', r) := add_path k q o in
                (o', match r with Err e => Err e | Ok _ => match cache_get k (o_cache o') with Some q' => Ok q' | None => Err KeyError end end)
            end
        end
    end.
End Cache.
(** 287-300: the entry under [checkpoint_cached_paths_key] of a checkpoint *)
Definition opt_store (o : optimizer) (ckp : option cache) : option cache := if o_save o then Some (o_cache o) else ckp.
Definition opt_restore (o : optimizer) (ckp : option cache) : optimizer :=
  match ckp with Some c => Opt c (o_file o) (o_save o) (o_limit o) | None => o end.

(** ** 303-422: [ordered_nodes_contractor] *)
Section Contract.
  Variables (K : Type) (kzero : K) (kadd kmul : K -> K -> K).
  (** dimension of an edge *)
  Variable dim : nat -> nat.
  (** an index for every edge *)
  Definition env := nat -> nat.
  Definition upd (r : env) (e v : nat) : env := fun x => if x =? e then v else r x.
  Fixpoint sum_to (n : nat) (f : nat -> K) : K := match n with O => kzero | S m => kadd (sum_to m f) (f m) end.
  (** the sum over all indices of the edges [es] *)
  Fixpoint sum_edges (es : list nat) (f : env -> K) (r : env) : K :=
    match es with [] => f r | e :: es' => sum_to (dim e) (fun v => sum_edges es' f (upd r e v)) end.
  (** a node: its identity, its edges in order, its tensor; an edge from a node to itself occurs twice *)
  Record node := Node { n_id : nat; n_edges : list nat; n_val : env -> K }.
  Definition occ (e : nat) (l : list nat) : nat := count_occ Nat.eq_dec l e.
  Definition shared (a b : node) : list nat := filter (fun e => 0 <? occ e (n_edges b)) (n_edges a).
  Definition contract_between (new : nat) (a b : node) : node :=
    Node new (filter (fun e => occ e (n_edges b) =? 0) (n_edges a) ++ filter (fun e => occ e (n_edges a) =? 0) (n_edges b))
         (sum_edges (shared a b) (fun r => kmul (n_val a r) (n_val b r))).
  Definition is_trace (n : node) (e : nat) : bool := occ e (n_edges n) =? 2.
  Definition contract_trace (new : nat) (n : node) : node :=
    Node new (filter (fun e => negb (is_trace n e)) (n_edges n)) (sum_edges (nodup Nat.eq_dec (filter (is_trace n) (n_edges n))) (n_val n)).
  Definition all_edges (ns : list node) : list nat := List.concat (map n_edges ns).
  (** [get_subgraph_dangling(nodes)] *)
  Definition dangling (ns : list node) : list nat := filter (fun e => occ e (all_edges ns) =? 1) (all_edges ns).
  Definition same_set (a b : list nat) : bool := forallb (fun e => 0 <? occ e b) a && forallb (fun e => 0 <? occ e a) b.
  Definition in_ids (n : node) (ns : list node) : bool := existsb (fun m => n_id m =? n_id n) ns.
  Fixpoint dedup_nodes (ns seen : list node) : list node :=
    match ns with [] => [] | n :: ns' => if in_ids n seen then dedup_nodes ns' seen else n :: dedup_nodes ns' (n :: seen) end.
  (** 355-361: every node with a trace edge leaves the set, the contracted node enters; new identities from [fresh] on *)
  Fixpoint contract_traces (fresh : nat) (ns : list node) : list node :=
    match ns with
    | [] => []
    | n :: ns' => if existsb (is_trace n) (n_edges n) then contract_trace fresh n :: contract_traces (S fresh) ns' else n :: contract_traces (S fresh) ns'
    end.
  Definition reorder (n : node) (order : list nat) : res node :=
    if same_set order (n_edges n) && (List.length order =? List.length (n_edges n)) then Ok (Node (n_id n) order (n_val n)) else Err ValueError.
  (** 374-381; [multi_remove(nodes, [a, b])] keeps the other positions *)
  Fixpoint remove_at {A} (i : nat) (js : list nat) (l : list A) : list A :=
    match l with [] => [] | x :: l' => if existsb (Nat.eqb i) js then remove_at (S i) js l' else x :: remove_at (S i) js l' end.
  Definition contract_step (st : list node * nat) (step : list nat) : res (list node * nat) :=
    let '(ns, fresh) := st in
    match step with
    | [a; b] =>
        match nth_error ns a, nth_error ns b with
        | Some x, Some y => Ok (remove_at 0 [a; b] (ns ++ [contract_between fresh x y]), S fresh)
        | _, _ => Err IndexError
        end
    | _ => Err ValueError
    end.
  (** the nodes are distinct objects, none of identity [fresh] or more; [find_path] is [_get_path_with_ordered_nodes] *)
  Definition ordered_contract (find_path : list node -> res path) (fresh : nat) (nodes : list node) (order : option (list nat)) (ignore : bool) : res node :=
    do order' <- (if ignore then Ok [] else
                  do o <- match order with Some o => Ok o | None => if 1 <? List.length (dangling nodes) then Err ValueError else Ok (dangling nodes) end;
                  if same_set o (dangling nodes) then Ok o else Err ValueError);
    let set := contract_traces fresh nodes in
    let fresh' := fresh + List.length nodes in
    match set with
    | [n] => if ignore then Ok n else reorder n order'
    | _ =>
        let nodes' := dedup_nodes (filter (fun n => in_ids n set) nodes) [] in
        do p <- find_path nodes';
        do st <- foldM contract_step p (nodes', fresh');
        match fst st with
        | [] => Err IndexError
        | n :: _ => if ignore then Ok n else reorder n order'
        end
    end.
  (** 398-422 [_get_path_with_ordered_nodes]: the call of the optimiser *)
  Definition path_problem (ns : list node) : problem :=
    Problem (map (fun n => nodup Nat.eq_dec (n_edges n)) ns) (dangling ns)
            (fun e => if 0 <? occ e (all_edges ns) then Some (dim e) else None) (Some (rev (nodup Nat.eq_dec (rev (all_edges ns))))).
End Contract.
