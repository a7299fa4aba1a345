(** Property theorems C49 (Dataset), C50 and C51 (Checkpoint). *)
From Verif Require Import PyBase DataModel DataFacts.

(** ** C49 *)
(** [pairs bts] zips every batch back and concatenates. *)
Theorem C49_batches_partition : forall X Y (rnd : list (X * Y) -> list (X * Y)),
  (forall l, Permutation (rnd l) l) ->
  forall d t bs sh ds, dataset_init d t bs sh = Ok ds -> (sh = true -> d <> []) ->
  exists bts, iterate rnd ds = Ok bts /\
    List.length bts = batches_per_epoch ds /\
    Permutation (pairs bts) (combine d t) /\
    (sh = false -> List.concat (map fst bts) = d /\ List.concat (map snd bts) = t) /\
    (forall b, In b bts -> List.length (fst b) = List.length (snd b) /\ fst b <> []) /\
    (forall i b, S i < List.length bts -> nth_error bts i = Some b -> List.length (fst b) = batch_size ds) /\
    (forall b, In b bts -> List.length (fst b) <= batch_size ds).
Proof. exact iterate_spec. Qed.
Print Assumptions C49_batches_partition.

(** batch_size 0 means one full batch, and the batch count is the ceiling of len / batch_size. *)
Theorem C49_batch_size : forall X Y (d : list X) (t : list Y) bs sh ds, dataset_init d t bs sh = Ok ds ->
  batch_size ds = (if bs =? 0 then List.length d else bs) /\
  batches_per_epoch ds * batch_size ds >= List.length d /\
  (d <> [] -> (batches_per_epoch ds - 1) * batch_size ds < List.length d) /\ (bs = 0 -> batches_per_epoch ds = 1).
Proof.
  intros X Y d t bs sh ds H. destruct (init_ok H) as (_ & _ & _ & _ & E & B & P). rewrite P.
  destruct (ceil_div_bounds (List.length d) B) as [A C]. split; auto. split; auto. split.
  - intro N. apply C. destruct d; cbn; [congruence|lia].
  - intros ->. cbn in E. rewrite E in *. unfold ceil_div. replace (List.length d + List.length d - 1) with ((List.length d - 1) + 1 * List.length d) by lia.
    rewrite Nat.div_add by lia. rewrite Nat.div_small; lia.
Qed.
Print Assumptions C49_batch_size.

(** construction succeeds for equal lengths unless the data is empty and batch_size is 0 *)
Theorem C49_constructible : forall X Y (d : list X) (t : list Y) bs sh,
  (List.length d <> List.length t -> dataset_init d t bs sh = Err ValueError) /\
  (List.length d = List.length t -> d <> [] \/ bs <> 0 -> exists ds, dataset_init d t bs sh = Ok ds).
Proof.
  intros. split; [|apply init_iff]. intro N. unfold dataset_init. apply Nat.eqb_neq in N. now rewrite N.
Qed.
Print Assumptions C49_constructible.

(** On empty data the full statement fails: a default Dataset cannot be built, and a shuffled one
    with a batch size raises when iterated, instead of yielding no batch. *)
Theorem C49_empty_refuted : forall (rnd : list (nat * nat) -> list (nat * nat)), (forall l, Permutation (rnd l) l) ->
  dataset_init (@nil nat) (@nil nat) 0 true = Err ZeroDivisionError /\
  exists ds, dataset_init (@nil nat) (@nil nat) 2 true = Ok ds /\ iterate rnd ds = Err ValueError.
Proof.
  intros rnd P. split; [reflexivity|]. eexists; split; [reflexivity|].
  unfold iterate, shuffle_data. cbn. specialize (P []). apply Permutation_sym, Permutation_nil in P. now rewrite P.
Qed.
Print Assumptions C49_empty_refuted.

Example C49_nonvacuous : exists ds, dataset_init [10; 11; 12; 13; 14] [0; 1; 2; 3; 4] 2 true = Ok ds /\
  (forall l : list (nat * nat), Permutation (rev l) l) /\
  iterate (@rev _) ds = Ok [([14; 13], [4; 3]); ([12; 11], [2; 1]); ([10], [0])].
Proof. eexists; split; [reflexivity|]. split; [|reflexivity]. intro. apply Permutation_sym, Permutation_rev. Qed.

(** ** C50 *)
(** [amem] interprets the same history over finite maps: latest write wins, to_file moves the
    entries to the file, from_file brings them back. *)
Theorem C50_finite_map : forall V bytes (enc : dict V -> list bytes) (dec : list bytes -> option (dict V)) dir_ok, (forall d, dec (enc d) = Some d) ->
  forall ops k, ckp_getitem (mem (run enc dec dir_ok ops)) k =
    match fst (amem dir_ok ops) k with Some v => Ok v | None => Err KeyError end.
Proof. exact getitem_refines. Qed.
Print Assumptions C50_finite_map.

Theorem C50_file_round_trip : forall V bytes (enc : dict V -> list bytes) (dec : list bytes -> option (dict V)) dir_ok, (forall d, dec (enc d) = Some d) ->
  forall w p, dir_ok p = true ->
  let '(ok, w') := to_file enc dir_ok w p in
  ok = true /\ from_file dec (fs w') p = Loaded (mem w) /\ mem w' = [] /\ (forall q, q <> p -> fs w' q = fs w q).
Proof. exact file_round_trip. Qed.
Print Assumptions C50_file_round_trip.

(** a failing to_file (missing directory) keeps the entries, a missing file is reported *)
Theorem C50_failures : forall V bytes (enc : dict V -> list bytes) (dec : list bytes -> option (dict V)) dir_ok (w : world V bytes) p,
  (dir_ok p = false -> to_file enc dir_ok w p = (false, w)) /\
  (fs w p = None -> from_file dec (fs w) p = FileNotFound).
Proof. intros. split; intro H; [unfold to_file|unfold from_file]; now rewrite H. Qed.
Print Assumptions C50_failures.

Example C50_nonvacuous :
  let ops := [Set_ "a" 1; AddMany [("b", 2); ("a", 3)]; ToFile _ "f"; Set_ "a" 9; FromFile _ "f"; Set_ "c" 4]%string in
  fst (amem (fun _ => true) ops) "a"%string = Some 3 /\
  mem (run (fun d : dict nat => [d]) (fun l => match l with [d] => Some d | _ => None end) (fun _ => true) ops)
    = [("a", 3); ("b", 2); ("c", 4)]%string.
Proof. split; reflexivity. Qed.

(** ** C51 *)
(** A crash leaves the file as it was, complete, or a prefix of the new bytes; the first two load
    to the previous or the new checkpoint, and other files are never touched. *)
Theorem C51_outside_write_partial : forall V bytes (enc : dict V -> list bytes) (dec : list bytes -> option (dict V)) dir_ok, (forall d, dec (enc d) = Some d) ->
  forall w p f, In f (crash_states enc dir_ok w p) ->
  (forall q, q <> p -> f q = fs w q) /\
  (f = fs w \/ exists n, n <= List.length (enc (mem w)) /\ f p = Some (firstn n (enc (mem w)))) /\
  (f = fs w \/ f p = Some (enc (mem w)) -> from_file dec f p = from_file dec (fs w) p \/ from_file dec f p = Loaded (mem w)).
Proof.
  intros V bytes enc dec dir_ok DE w p f H. split; [|split].
  - intros q N. exact (crash_other_files H N).
  - exact (crash_cases H).
  - intros [->|E]; auto. right. unfold from_file. now rewrite E, DE.
Qed.
Print Assumptions C51_outside_write_partial.

(** The full property fails for every pickle format that rejects an empty file, every previous
    checkpoint and every new one: a crash right after open(path, 'wb+') loses both. *)
Theorem C51_crash_loses_checkpoint_refuted : forall V bytes (enc : dict V -> list bytes) (dec : list bytes -> option (dict V)) dir_ok,
  dec [] = None -> forall (w : world V bytes) p, dir_ok p = true ->
  exists f, In f (crash_states enc dir_ok w p) /\ from_file dec f p = Corrupt.
Proof. intros. now apply crash_loses. Qed.
Print Assumptions C51_crash_loses_checkpoint_refuted.

Example C51_nonvacuous :
  let enc := fun d : dict nat => map snd d ++ [0] in
  let w := World (dict_set [] "epoch" 2)%string (write (fun _ => None) "model.lt" (enc [("epoch", 1)]))%string in
  map (fun f => f "model.lt"%string) (crash_states enc (fun _ => true) w "model.lt") =
    [Some [1; 0]; Some []; Some [2]; Some [2; 0]].
Proof. reflexivity. Qed.

(** ** C75 *)
Theorem C75_getitem : forall X Y (d : list X) (t : list Y) bs sh ds i, dataset_init d t bs sh = Ok ds ->
  let n := Z.of_nat (List.length d) in
  ((- n <= i < n)%Z -> exists p, getitem ds i = Ok p /\ nth_error (combine d t) (Z.to_nat (if (i <? 0)%Z then n + i else i)%Z) = Some p) /\
  (~ (- n <= i < n)%Z -> getitem ds i = Err IndexError).
Proof. exact getitem_spec. Qed.
Print Assumptions C75_getitem.
Example C75_ok : exists ds, dataset_init [10; 11; 12] [0; 1; 2] 2 true = Ok ds /\ getitem ds (-1) = Ok (12, 2).
Proof. eexists; split; reflexivity. Qed.
