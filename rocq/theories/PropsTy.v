(** Properties C01-C03: grammar types.  Statements only. *)
From Verif Require Import PyBase TyModel TyFacts.

(** C01 *)
Theorem C01_tensor_associative : forall s t u,
  flat s = true -> flat t = true -> flat u = true ->
  r_tensor (r_tensor s t) u = r_tensor s (r_tensor t u).
Proof. exact tensor_assoc. Qed.
Print Assumptions C01_tensor_associative.

Theorem C01_tensor_unit : forall t, flat t = true ->
  r_tensor r_empty t = t /\ r_tensor t r_empty = t.
Proof. exact tensor_unit. Qed.
Print Assumptions C01_tensor_unit.

Theorem C01_tensor_concatenates : forall s t, flat s = true -> flat t = true ->
  flat (r_tensor s t) = true /\ factors (r_tensor s t) = factors s ++ factors t
  /\ r_len (r_tensor s t) = r_len s + r_len t.
Proof. exact tensor_factors. Qed.
Print Assumptions C01_tensor_concatenates.

Theorem C01_tensor_variadic : forall s ts, flat s = true -> Forall (fun t => flat t = true) ts ->
  r_tensor_iter s ts = fold_left r_tensor ts s /\
  flat (r_tensor_iter s ts) = true /\
  factors (r_tensor_iter s ts) = factors s ++ List.concat (map factors ts).
Proof. exact tensor_many. Qed.
Print Assumptions C01_tensor_variadic.

Theorem C01_equality_is_equality_of_factors : forall s t, flat s = true -> flat t = true ->
  (s = t <-> factors s = factors t).
Proof. exact flat_eq_iff. Qed.
Print Assumptions C01_equality_is_equality_of_factors.

Theorem C01_power : forall t n, flat t = true ->
  flat (r_repeat t n) = true /\ factors (r_repeat t n) = List.concat (repeat (factors t) n).
Proof. exact repeat_factors. Qed.
Print Assumptions C01_power.

Example C01_nonvacuous :
  let s := r_tensor (r_atom "n" 0) (r_atom "s" (-1)) in
  flat s = true /\ flat (r_atom "p" 2) = true /\ flat r_empty = true /\
  factors (r_tensor s (r_atom "p" 2)) = [("n", 0%Z); ("s", (-1)%Z); ("p", 2%Z)]%string.
Proof. repeat split. Qed.

(** C02 *)
Theorem C02_rotate_additive : forall a b t, flat t = true ->
  r_rotate b (r_rotate a t) = r_rotate (a + b) t.
Proof. exact rotate_add. Qed.
Print Assumptions C02_rotate_additive.

Theorem C02_adjoints_cancel : forall t, flat t = true -> r_r (r_l t) = t /\ r_l (r_r t) = t.
Proof. exact rotate_adj. Qed.
Print Assumptions C02_adjoints_cancel.

Theorem C02_rotate_tensor : forall s t, flat s = true -> flat t = true -> forall z,
  r_rotate z (r_tensor s t) =
  if Z.odd z then r_tensor (r_rotate z t) (r_rotate z s) else r_tensor (r_rotate z s) (r_rotate z t).
Proof. exact rotate_tensor. Qed.
Print Assumptions C02_rotate_tensor.

Theorem C02_rotate_factors : forall t, flat t = true -> forall z,
  factors (r_rotate z t) =
  map (fun '(n, k) => (n, (k + z)%Z)) (if Z.odd z then rev (factors t) else factors t).
Proof. exact rotate_factors. Qed.
Print Assumptions C02_rotate_factors.

Theorem C02_rotate_flat : forall z t, flat t = true -> flat (r_rotate z t) = true.
Proof. exact rotate_flat. Qed.
Print Assumptions C02_rotate_flat.

(** `s << t` is `s @ t.l`, `s >> t` is `s.r @ t`; both are flat *)
Theorem C02_over_under : forall s t, flat s = true -> flat t = true ->
  flat (r_over s t) = true /\ flat (r_under s t) = true /\
  factors (r_over s t) = factors s ++ map (fun '(n, k) => (n, (k - 1)%Z)) (rev (factors t)) /\
  factors (r_under s t) = map (fun '(n, k) => (n, (k + 1)%Z)) (rev (factors s)) ++ factors t.
Proof. exact over_under. Qed.
Print Assumptions C02_over_under.

Example C02_nonvacuous :
  r_rotate (-3) (r_tensor (r_atom "n" 0) (r_atom "s" 1))
  = r_tensor (r_atom "s" (-2)) (r_atom "n" (-3)).
Proof. reflexivity. Qed.

(** C03 *)
Theorem C03_insert_partial : forall t u, flat t = true -> flat u = true -> forall i,
  (0 <= i <= Z.of_nat (r_len t))%Z ->
  exists v, r_insert t u i = Ok v /\ flat v = true /\
    factors v = firstn (Z.to_nat i) (factors t) ++ factors u ++ skipn (Z.to_nat i) (factors t).
Proof. exact insert_spec. Qed.
Print Assumptions C03_insert_partial.

(** negative indices count from the end, but only for types of length >= 2 *)
Theorem C03_insert_negative_partial : forall t u, flat t = true -> flat u = true -> forall i,
  (i < 0)%Z -> 2 <= r_len t ->
  exists v, r_insert t u i = Ok v /\ flat v = true /\
    let p := r_len t - Z.to_nat (- i) in
    factors v = firstn p (factors t) ++ factors u ++ skipn p (factors t).
Proof. exact insert_neg_spec. Qed.
Print Assumptions C03_insert_negative_partial.

Theorem C03_insert_out_of_range : forall t u i,
  (Z.of_nat (r_len t) < i)%Z -> r_insert t u i = Err IndexError.
Proof. exact r_insert_range. Qed.
Print Assumptions C03_insert_out_of_range.

(** Inserting at a negative index into an atomic type loses the type itself. *)
Theorem C03_insert_negative_atomic_refuted : exists t u v,
  flat t = true /\ flat u = true /\ r_insert t u (-1) = Ok v /\ ~ In ("n", 0%Z)%string (factors v)
  /\ In ("n", 0%Z)%string (factors t).
Proof.
  exact (ex_intro _ (r_atom "n" 0) (ex_intro _ (r_atom "s" 0) (ex_intro _ (r_atom "s" 0)
    (conj eq_refl (conj eq_refl (conj eq_refl (conj
      (fun H : In ("n", 0%Z)%string [("s", 0%Z)%string] =>
         match H with or_introl E => ltac:(discriminate E) | or_intror F => F end)
      (or_introl eq_refl)))))))).
Qed.
Print Assumptions C03_insert_negative_atomic_refuted.

Theorem C03_replace : forall t u, flat t = true -> flat u = true -> forall i,
  (0 <= i < Z.of_nat (r_len t))%Z ->
  exists v, r_replace t u i = Ok v /\ flat v = true /\
    factors v = firstn (Z.to_nat i) (factors t) ++ factors u ++ skipn (S (Z.to_nat i)) (factors t).
Proof. exact replace_spec. Qed.
Print Assumptions C03_replace.

Theorem C03_replace_out_of_range : forall t u i,
  (i < 0 \/ Z.of_nat (r_len t) < i)%Z -> r_replace t u i = Err IndexError.
Proof. exact r_replace_range. Qed.
Print Assumptions C03_replace_out_of_range.

(** [index = len(t)] is out of range, yet the code overwrites the last factor. *)
Theorem C03_replace_at_length_refuted : forall t u a,
  r_len (of_ty (t ++ [a])) = S (List.length t) /\
  r_replace (of_ty (t ++ [a])) (of_ty u) (Z.of_nat (S (List.length t))) = Ok (of_ty (t ++ u)).
Proof. exact replace_at_len_refuted. Qed.
Print Assumptions C03_replace_at_length_refuted.

Example C03_nonvacuous :
  let t := of_ty [("a", 0%Z); ("b", 0%Z); ("c", 0%Z)]%string in
  flat t = true /\ r_len t = 3 /\
  r_insert t (r_atom "x" 0) 1 = Ok (of_ty [("a", 0%Z); ("x", 0%Z); ("b", 0%Z); ("c", 0%Z)]%string) /\
  r_replace t (r_atom "x" 0) 2 = Ok (of_ty [("a", 0%Z); ("b", 0%Z); ("x", 0%Z)]%string).
Proof. repeat split. Qed.
