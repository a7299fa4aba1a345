(** Property theorems C94-C96: cached contraction paths, and contraction along a path. *)
From Coq Require Import ZArith Ring_theory.
From Verif Require Import PyBase PyFacts PoModel PoSpec PoCache PoNet PoUse.
Set Implicit Arguments. Unset Strict Implicit.

(** ** C94: a cached path was found for the same contraction *)

(** Two contractions share a cache entry exactly when they are the same up to the names of the edges and the order in which sets are iterated. *)
Theorem C94_key : forall sym, (forall i j, sym i = sym j -> i = j) -> forall p q, proper p -> proper q ->
  (exists k, make_key sym p = Ok k /\ make_key sym q = Ok k) <-> same_up_to_names p q.
Proof. exact key_same. Qed.
Print Assumptions C94_key.
Example C94_key_instance : let p := Problem [[7; 4]; [4; 9]] [9; 7] (fun e => Some (if e =? 4 then 3 else 2)) (Some [7; 4; 9]) in
  let q := Problem [[1; 5]; [8; 1]] [5; 8] (fun e => Some (if e =? 1 then 3 else 2)) (Some [5; 1; 8]) in
  proper p /\ proper q /\ make_key S p = make_key S q /\ make_key S p <> make_key S (Problem [[1; 5]; [8; 1]] [5; 8] (fun e => Some 2) (Some [5; 1; 8])).
Proof.
  cbv zeta. split; [|split; [|split; [reflexivity|discriminate]]].
  - exists [7; 4; 9]. cbn. repeat split; try (repeat constructor; cbn; lia); intros; eauto; intuition (subst; cbn in *; intuition).
  - exists [5; 1; 8]. cbn. repeat split; try (repeat constructor; cbn; lia); intros; eauto; intuition (subst; cbn in *; intuition).
Qed.
(** In every history of calls, checkpoints saved and restored, and restarts from the file, of an optimizer that starts with an empty cache:
    each path answered was found by a search for a contraction that was asked for and is the same up to names. *)
Theorem C94_history : forall sym, (forall i j, sym i = sym j -> i = j) -> forall search f save lim o es o' ckp log,
  opt_init f save lim = Ok o -> o_cache o = [] -> Forall (fun e => match e with Call p _ => proper p | _ => True end) es ->
  history sym search o es = Ok (o', ckp, log) ->
  forall p q, In (p, Ok q) log -> exists p0 lim0, In p0 (map fst log) /\ same_up_to_names p0 p /\ search p0 lim0 = Ok q.
Proof. intros sym SI search f save lim o es o' ckp log H1 H2 H3 H4. exact (answers_ok SI H1 H2 H3 H4). Qed.
Print Assumptions C94_history.
Example C94_history_instance : let p := Problem [[7; 4]; [4; 9]] [9; 7] (fun _ => Some 2) (Some [7; 4; 9]) in let q := Problem [[1; 5]; [8; 1]] [5; 8] (fun _ => Some 2) (Some [5; 1; 8]) in
  match opt_init (Some Truncated) true None with
  | Ok o => exists o' ckp, history S (fun p _ => Ok (map (fun s => s) (p_inputs p))) o [Call p None; Store; Restart; Restore; Call q None] = Ok (o', ckp, [(p, Ok [[7; 4]; [4; 9]]); (q, Ok [[7; 4]; [4; 9]])])
  | Err _ => False
  end.
Proof. cbv zeta. cbn. eexists. eexists. reflexivity. Qed.
(** Once answered, the same contraction is answered with the same path, without a search, after any number of other calls. *)
Theorem C94_repeat : forall sym, (forall i j, sym i = sym j -> i = j) -> forall search o p lim q, snd (opt_call sym search o p lim) = Ok q ->
  forall es p' lim' search', proper p -> proper p' -> same_up_to_names p p' ->
  let o' := fold_left (fun o (c : (problem -> option nat -> res path) * problem * option nat) => fst (opt_call sym (fst (fst c)) o (snd (fst c)) (snd c))) es (fst (opt_call sym search o p lim)) in
  opt_call sym search' o' p' lim' = (o', Ok q).
Proof.
  intros sym SI search o p lim q H es p' lim' search' Pp Pp' SU. cbv zeta. apply call_stores in H. destruct H as (k & EK & EG). apply (calls_keep sym es) in EG. apply (key_same SI Pp Pp') in SU. destruct SU as (k' & E1 & E2).
  assert (k' = k) by congruence. subst k'. unfold opt_call at 1. rewrite E2, EG. reflexivity.
Qed.
Print Assumptions C94_repeat.
(** In particular the memory limit asked for is ignored when a path is cached: here a limit that forbids every path. *)
Theorem C94_memory_limit_refuted : exists p q search o, snd (opt_call S search o p None) = Ok q /\ search p (Some 1) = Err ValueError /\
  snd (opt_call S search (fst (opt_call S search o p None)) p (Some 1)) = Ok q.
Proof.
  exists (Problem [[0]; [0]] [] (fun _ => Some 2) (Some [0])), [[0; 1]], (fun _ lim => match lim with None => Ok [[0; 1]] | Some _ => Err ValueError end), (Opt [] None false None). repeat split.
Qed.
Print Assumptions C94_memory_limit_refuted.
(** Without a cached path the search is given the memory limit asked for, or that of the optimizer if none (or 0) is asked for. *)
Theorem C94_limit : forall sym search o p k lim, make_key sym p = Ok k -> o_cache o = [] -> o_file o <> Some Directory ->
  (forall n, lim = Some (S n) -> snd (opt_call sym search o p lim) = search p lim) /\
  (lim = None \/ lim = Some 0 -> snd (opt_call sym search o p lim) = search p (o_limit o)).
Proof. intros sym search o p k lim E C F. rewrite (call_limit search lim E C F). split; [now intros n ->|now intros [-> | ->]]. Qed.
Print Assumptions C94_limit.
Example C94_limit_instance : let p := Problem [[0]; [0]] [] (fun _ => Some 2) (Some [0]) in let o := Opt [] (Some Truncated) true (Some 7) in
  is_ok (make_key S p) = true /\ snd (opt_call S (fun _ lim => match lim with Some 7 => Ok [[0; 1]] | _ => Err ValueError end) o p (Some 0)) = Ok [[0; 1]].
Proof. cbv zeta. split; reflexivity. Qed.

(** ** C95: cached paths survive *)

(** If the file exists when the optimizer is made, a new process started after any calls that ended (with whatever answers) has the same cache. *)
Theorem C95_file_partial : forall sym c0 f save lim o es, f = Truncated \/ f = Holds c0 -> opt_init (Some f) save lim = Ok o ->
  let o' := fold_left (fun o (c : (problem -> option nat -> res path) * problem * option nat) => fst (opt_call sym (fst (fst c)) o (snd (fst c)) (snd c))) es o in
  exists o2, opt_init (o_file o') (o_save o') (o_limit o') = Ok o2 /\ o_cache o2 = o_cache o'.
Proof.
  intros sym c0 f save lim o es HF HI. cbv zeta. assert (SV : saved o). { destruct HF as [-> | ->]; injection HI as <-; (eexists; split; [reflexivity|]); (eexists; split; [reflexivity|]); (split; [reflexivity|discriminate]). }
  clear HI HF. revert o SV. induction es as [|[[s p] l] es IH]; intros o SV; cbn [fold_left].
  - destruct SV as (g & Eg & o1 & E1 & E2 & _). exists o1. rewrite Eg. auto.
  - apply IH. now apply call_saved.
Qed.
Print Assumptions C95_file_partial.
Example C95_instance : let p := Problem [[0]; [0]] [] (fun _ => Some 2) (Some [0]) in
  match opt_init (Some Truncated) false None with
  | Ok o => exists k, o_file (fst (opt_call S (fun _ _ => Ok [[0; 1]]) o p None)) = Some (Holds [(k, [[0; 1]])])
  | Err _ => False
  end.
Proof. cbn. eexists. reflexivity. Qed.
(** If it does not, the constructor makes a directory in its place: the first new path raises, and so does every later process. *)
Theorem C95_new_file_refuted : exists o, opt_init (Some Missing) false None = Ok o /\
  (forall sym search p lim k q, make_key sym p = Ok k -> search p (or_limit lim None) = Ok q -> is_ok (snd (opt_call sym search o p lim)) = false) /\
  is_ok (opt_init (o_file o) false None) = false.
Proof.
  eexists. split; [reflexivity|]. split; [|reflexivity]. intros sym search p lim k q E1 E2. unfold opt_call. cbn [o_cache o_limit]. rewrite E1. cbn [cache_get]. rewrite E2. reflexivity.
Qed.
Print Assumptions C95_new_file_refuted.
(** A process killed while a new path is saved can lose all earlier ones, or leave a file that no later process accepts. *)
Theorem C95_crash_refuted : forall c k q save lim, c <> [] -> exists f g, let o := Opt c (Some (Holds c)) save lim in
  In f (add_crash k q o) /\ In g (add_crash k q o) /\ (exists o1, opt_init f save lim = Ok o1 /\ o_cache o1 = []) /\ is_ok (opt_init g save lim) = false.
Proof.
  intros c k q save lim _. exists (Some Truncated), (Some CutOff). cbv zeta. cbn. split; [auto|]. split; [auto|]. split; [|reflexivity]. eexists. split; reflexivity.
Qed.
Print Assumptions C95_crash_refuted.
(** With save_checkpoints a checkpoint restores the cache it was saved from, in any optimizer; without, checkpoints are left alone. *)
Theorem C95_checkpoint : forall o o2 ckp, 
  (o_save o = true -> o_cache (opt_restore o2 (opt_store o ckp)) = o_cache o /\ o_file (opt_restore o2 (opt_store o ckp)) = o_file o2) /\
  (o_save o = false -> opt_store o ckp = ckp) /\ opt_restore o2 None = o2.
Proof. intros o o2 ckp. unfold opt_store. split; [intros ->; split; reflexivity|]. split; [intros ->; reflexivity|reflexivity]. Qed.
Print Assumptions C95_checkpoint.

(** ** C96: contraction computes the value of the network, whatever the path *)

(** For every network of nodes without edges from a node to itself, over any commutative semiring, and every path of pairs of positions that
    contracts it to one node: the result has the dangling edges (in the order asked for), and its entries are the sums over the indices of all
    inner edges of the products of the entries of the nodes ([net_value] does not mention paths). *)
Theorem C96_contraction_partial : forall K (kzero kone : K) kadd kmul dim, semi_ring_theory kzero kone kadd kmul (@eq K) ->
  forall find_path fresh ns order ignore p, net_ok ns -> NoDup (map (@n_id K) ns) -> ns <> [] ->
  find_path ns = Ok p -> good_path (List.length ns) p ->
  (ignore = true \/ exists o, Permutation o (dangling ns) /\ (order = Some o \/ order = None /\ List.length o <= 1)) ->
  exists n, ordered_contract kzero kadd kmul dim find_path fresh ns order ignore = Ok n /\ Permutation (n_edges n) (dangling ns) /\
    (ignore = false -> forall o, order = Some o -> n_edges n = o) /\ forall r, n_val n r = net_value kzero kone kadd kmul dim ns r.
Proof. intros. eapply contract_correct; eauto. Qed.
Print Assumptions C96_contraction_partial.
(** So it does with the cached optimizer, in any state reached with searches that find such paths. *)
Theorem C96_cached_partial : forall K (kzero kone : K) kadd kmul dim, semi_ring_theory kzero kone kadd kmul (@eq K) ->
  forall sym search o fresh ns order ignore p, net_ok ns -> NoDup (map (@n_id K) ns) -> ns <> [] -> good_search search -> good_cache o ->
  snd (opt_call sym search o (path_problem dim ns) None) = Ok p ->
  (ignore = true \/ exists o, Permutation o (dangling ns) /\ (order = Some o \/ order = None /\ List.length o <= 1)) ->
  exists n, ordered_contract kzero kadd kmul dim (fun ns => snd (opt_call sym search o (path_problem dim ns) None)) fresh ns order ignore = Ok n /\
    Permutation (n_edges n) (dangling ns) /\ (ignore = false -> forall o, order = Some o -> n_edges n = o) /\ forall r, n_val n r = net_value kzero kone kadd kmul dim ns r.
Proof. intros. eapply cached_contract; eauto. Qed.
Print Assumptions C96_cached_partial.
Theorem C96_good_states : forall sym search o p lim, good_search search -> good_cache o ->
  good_cache (Opt [] (o_file o) (o_save o) (o_limit o)) /\ good_cache (fst (opt_call sym search o p lim)) /\ forall K dim (ns : list (node K)), proper (path_problem dim ns).
Proof. intros sym search o p lim S G. split; [intros k q []|]. split; [now apply call_good|]. intros. apply path_problem_proper. Qed.
Print Assumptions C96_good_states.
(** the hypotheses are met: three matrices in a chain, contracted in two orders *)
Definition mat (i a b : nat) : node nat := Node i [a; b] (fun r => 2 * r a + r b + i).
Example C96_instance : let ns := [mat 0 1 2; mat 1 2 3; mat 2 3 4] in let dim := fun _ : nat => 2 in
  net_ok ns /\ NoDup (map (@n_id nat) ns) /\ Permutation [4; 1] (dangling ns) /\ good_path 3 [[0; 1]; [0; 1]] /\ good_path 3 [[2; 0]; [0; 1]] /\
  (forall p, In p [[[0; 1]; [0; 1]]; [[2; 0]; [0; 1]]] ->
    rmap (fun n => (n_edges n, map (fun r => n_val n (fun e => if e =? 4 then fst r else snd r)) [(0, 0); (0, 1); (1, 0); (1, 1)])) (ordered_contract 0 Nat.add Nat.mul dim (fun _ => Ok p) 10 ns (Some [4; 1]) false)
      = Ok ([4; 1], map (fun r => net_value 0 1 Nat.add Nat.mul dim ns (fun e => if e =? 4 then fst r else snd r)) [(0, 0); (0, 1); (1, 0); (1, 1)])).
Proof.
  cbv zeta. split.
  - split; [repeat constructor; cbn; try lia; intros r r' H; now rewrite !H by (cbn; auto)|]. intro e. vm_compute. destruct e as [|[|[|[|[|e]]]]]; auto.
  - split; [repeat constructor; cbn; lia|]. split; [vm_compute; apply perm_swap|]. split; [cbn; lia|]. split; [cbn; lia|]. intros p [<-|[<-|[]]]; vm_compute; reflexivity.
Qed.
Example C96_cached_instance : let search := fun p (_ : option nat) => if List.length (p_inputs p) =? 3 then Ok [[0; 1]; [0; 1]] else Err ValueError in let o := Opt [] None false None in
  good_search search /\ good_cache o /\ snd (opt_call S search o (path_problem (fun _ => 2) [mat 0 1 2; mat 1 2 3; mat 2 3 4]) None) = Ok [[0; 1]; [0; 1]].
Proof.
  cbv zeta. split; [|split; [intros k q []|reflexivity]]. intros p lim q H. destruct (Nat.eqb_spec (List.length (p_inputs p)) 3) as [E|]; [|discriminate]. injection H as <-. rewrite E. cbn. lia.
Qed.
(** A network of a single node is contracted correctly also when the node has edges to itself. *)
Theorem C96_single_node : forall K (kzero kone : K) kadd kmul dim, semi_ring_theory kzero kone kadd kmul (@eq K) ->
  forall find_path fresh n order ignore, (forall e, occ e (n_edges n) <= 2) ->
  (ignore = true \/ exists o, Permutation o (dangling [n]) /\ (order = Some o \/ order = None /\ List.length o <= 1)) ->
  exists n', ordered_contract kzero kadd kmul dim find_path fresh [n] order ignore = Ok n' /\ Permutation (n_edges n') (dangling [n]) /\
    (ignore = false -> forall o, order = Some o -> n_edges n' = o) /\ forall r, n_val n' r = net_value kzero kone kadd kmul dim [n] r.
Proof. intros. now apply single_contract. Qed.
Print Assumptions C96_single_node.
Example C96_single_instance : let n := Node 0 [1; 5; 1; 6] (fun r => 4 * r 5 + 2 * r 6 + (if r 1 =? 0 then 3 else 7)) in
  rmap (fun m => (n_edges m, n_val m (fun e => e - 5))) (ordered_contract 0 Nat.add Nat.mul (fun _ => 2) (fun _ => Err ValueError) 10 [n] (Some [6; 5]) false) = Ok ([6; 5], 14).
Proof. reflexivity. Qed.
(** An order that does not consist of the dangling edges, or no order when there are several, is refused. *)
Theorem C96_bad_order : forall K (kzero : K) kadd kmul dim find_path fresh ns order,
  (order = None /\ 2 <= List.length (dangling ns)) \/ (exists o, order = Some o /\ exists e, In e o /\ ~ In e (dangling ns) \/ In e (dangling ns) /\ ~ In e o) ->
  ordered_contract kzero kadd kmul dim find_path fresh ns order false = Err ValueError.
Proof. intros. now apply bad_order. Qed.
Print Assumptions C96_bad_order.
Example C96_bad_order_instance : 2 <= List.length (dangling [mat 0 1 2; mat 1 2 3]) /\ ~ In 2 (dangling [mat 0 1 2; mat 1 2 3]).
Proof. split; [vm_compute; lia|]. vm_compute. intros [H|[H|[]]]; discriminate. Qed.
(** A node with an edge to itself is dropped when there are at least two others: the result is silently that of the rest of the network. *)
Theorem C96_trace_refuted : exists (ns : list (node nat)) n, let dim := fun _ : nat => 2 in
  map (@n_edges nat) ns = [[1; 1]; [2]; [2]] /\ ordered_contract 0 Nat.add Nat.mul dim (fun _ => Ok [[0; 1]]) 10 ns None false = Ok n /\
  n_val n (fun _ => 0) = 2 /\ net_value 0 1 Nat.add Nat.mul dim ns (fun _ => 0) = 20.
Proof.
  exists [Node 0 [1; 1] (fun r => if r 1 =? 0 then 3 else 7); Node 1 [2] (fun _ => 1); Node 2 [2] (fun _ => 1)]. eexists. cbv zeta. split; [reflexivity|]. split; [reflexivity|]. split; vm_compute; reflexivity.
Qed.
Print Assumptions C96_trace_refuted.
(** If it also shares an edge with another node, contraction raises. *)
Theorem C96_trace_shared_refuted : exists ns : list (node nat), let dim := fun _ : nat => 2 in
  map (@n_edges nat) ns = [[1; 1; 3]; [2; 3]; [2]] /\ ordered_contract 0 Nat.add Nat.mul dim (fun _ => Ok [[0; 1]]) 10 ns None false = Err ValueError.
Proof.
  exists [Node 0 [1; 1; 3] (fun r => 1); Node 1 [2; 3] (fun _ => 1); Node 2 [2] (fun _ => 1)]. cbv zeta. split; vm_compute; reflexivity.
Qed.
Print Assumptions C96_trace_shared_refuted.
