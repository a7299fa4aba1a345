(** Proofs about [TyModel]. *)
From Verif Require Import PyBase TyModel.
Set Implicit Arguments.

Section RtyInd.
  Variable P : rty -> Prop.
  Hypothesis H : forall n o z, Forall P o -> P (RTy n o z).
  Fixpoint rty_ind' (t : rty) : P t :=
    match t with
    | RTy n o z => H n z ((fix go (l : list rty) : Forall P l :=
        match l with
        | [] => Forall_nil _
        | x :: xs => Forall_cons _ (rty_ind' x) (go xs)
        end) o)
    end.
End RtyInd.

Lemma atom_eqb_spec a b : reflect (a = b) (atom_eqb a b).
Proof.
  destruct a as [n z], b as [m y]; unfold atom_eqb; cbn.
  destruct (String.eqb_spec n m); cbn; [|constructor; congruence].
  destruct (Z.eqb_spec z y); constructor; congruence.
Qed.

Lemma ty_eqb_spec s t : reflect (s = t) (ty_eqb s t).
Proof.
  revert t; induction s as [|a s IH]; intros [|b t]; cbn; try (constructor; congruence).
  destruct (atom_eqb_spec a b); cbn; [|constructor; congruence].
  destruct (IH t); constructor; congruence.
Qed.

Lemma ty_eqb_refl t : ty_eqb t t = true.
Proof. destruct (ty_eqb_spec t t); congruence. Qed.

Lemma atomic_inv t : is_atomic t = true -> exists n z, t = r_atom n z.
Proof. destruct t as [[n|] [|o os] z]; cbn; try discriminate; unfold r_atom; eauto. Qed.

Lemma of_atom_atomic a : is_atomic (of_atom a) = true.
Proof. reflexivity. Qed.

Lemma factor_of_atom a : factor (of_atom a) = a.
Proof. destruct a; reflexivity. Qed.

Lemma of_atom_factor t : is_atomic t = true -> of_atom (factor t) = t.
Proof. intros H; destruct (atomic_inv _ H) as (n & z & ->); reflexivity. Qed.

Lemma map_of_atom_factor l : forallb is_atomic l = true -> map of_atom (map factor l) = l.
Proof.
  induction l as [|x l IH]; cbn; [reflexivity|]; intros H.
  apply andb_prop in H as [H1 H2]. rewrite of_atom_factor, IH; auto.
Qed.

Lemma map_factor_of_atom l : map factor (map of_atom l) = l.
Proof. rewrite map_map, (map_ext _ (fun x => x)); [apply map_id|apply factor_of_atom]. Qed.

Lemma forallb_of_atom l : forallb is_atomic (map of_atom l) = true.
Proof. induction l; cbn; auto. Qed.

(** flat types: shape *)
Inductive flat_shape : rty -> Prop :=
| FS_empty : flat_shape r_empty
| FS_atom a : flat_shape (of_atom a)
| FS_complex a b l : flat_shape (RTy None (map of_atom (a :: b :: l)) 0).

Lemma flat_inv t : flat t = true -> flat_shape t.
Proof.
  destruct t as [n o z]; unfold flat, post_init; cbn [r_objects r_name r_z].
  intros H. repeat (apply andb_prop in H as [H ?]).
  destruct o as [|a [|b o]]; cbn in *; try discriminate.
  - destruct n as [n|]; cbn in *.
    + apply (FS_atom (n, z)).
    + match goal with H : (z =? 0)%Z = true |- _ => apply Z.eqb_eq in H; subst end. constructor.
  - destruct n as [n|]; cbn in *; [discriminate|].
    match goal with H : (z =? 0)%Z = true |- _ => apply Z.eqb_eq in H; subst end.
    match goal with H : is_atomic a && _ = true |- _ =>
      assert (E : map of_atom (map factor (a :: b :: o)) = a :: b :: o)
        by (apply map_of_atom_factor; exact H) end.
    rewrite <- E. apply (FS_complex (factor a) (factor b) (map factor o)).
Qed.

Lemma flat_shape_flat t : flat_shape t -> flat t = true.
Proof.
  intros []; try reflexivity.
  unfold flat, post_init; cbn. now rewrite forallb_of_atom.
Qed.

Lemma flat_shape_iter t : flat_shape t -> r_iter t = map of_atom (factors t).
Proof.
  intros [|[n z]|a b l]; try reflexivity.
  unfold factors. cbn [r_iter is_atomic r_objects]. now rewrite map_factor_of_atom.
Qed.

Lemma of_ty_flat_shape l : flat_shape (of_ty l).
Proof.
  destruct l as [|a [|b l]]; unfold of_ty; cbn; constructor.
Qed.

Lemma of_ty_flat l : flat (of_ty l) = true.
Proof. apply flat_shape_flat, of_ty_flat_shape. Qed.

Lemma factors_of_ty l : factors (of_ty l) = l.
Proof.
  destruct l as [|a [|b l]]; unfold factors, of_ty.
  - reflexivity.
  - destruct a; reflexivity.
  - change (fromiter (map of_atom (a :: b :: l))) with (RTy None (map of_atom (a :: b :: l)) 0).
    apply map_factor_of_atom.
Qed.

Lemma of_ty_factors_shape t : flat_shape t -> of_ty (factors t) = t.
Proof.
  intros [|[n z]|a b l]; try reflexivity.
  unfold factors. cbn [r_iter is_atomic r_objects]. now rewrite map_factor_of_atom.
Qed.

Lemma of_ty_factors t : flat t = true -> of_ty (factors t) = t.
Proof. intros H; apply of_ty_factors_shape, flat_inv, H. Qed.

Lemma of_ty_inj s t : of_ty s = of_ty t -> s = t.
Proof. intros H. rewrite <- (factors_of_ty s), H. apply factors_of_ty. Qed.

Lemma flat_eq_iff s t : flat s = true -> flat t = true ->
  (s = t <-> factors s = factors t).
Proof.
  intros Hs Ht; split; [congruence|].
  intros E. rewrite <- (of_ty_factors _ Hs), <- (of_ty_factors _ Ht). congruence.
Qed.

Lemma r_iter_of_ty l : r_iter (of_ty l) = map of_atom l.
Proof. rewrite (flat_shape_iter (of_ty_flat_shape l)), factors_of_ty; auto. Qed.

Lemma flat_map_iter_atoms l : flat_map r_iter (map of_atom l) = map of_atom l.
Proof. induction l as [|a l IH]; cbn; congruence. Qed.

Lemma flat_map_iter_of_ty ls : flat_map r_iter (map of_ty ls) = map of_atom (List.concat ls).
Proof.
  induction ls as [|l ls IH]; cbn; [reflexivity|].
  rewrite r_iter_of_ty, IH, map_app; reflexivity.
Qed.

Lemma r_tensor_of_ty s t : r_tensor (of_ty s) (of_ty t) = of_ty (s ++ t).
Proof.
  unfold r_tensor; cbn [flat_map].
  rewrite !r_iter_of_ty, flat_map_iter_atoms, <- map_app; reflexivity.
Qed.

Lemma r_tensor_list_of_ty s t rest :
  r_tensor_list (of_ty s) (of_ty t) (map of_ty rest) = of_ty (s ++ t ++ List.concat rest).
Proof.
  unfold r_tensor_list; cbn [flat_map].
  rewrite flat_map_app, !r_iter_of_ty, flat_map_iter_atoms, flat_map_iter_of_ty, <- !map_app.
  reflexivity.
Qed.

Lemma r_tensor_iter_of_ty s ts :
  r_tensor_iter (of_ty s) (map of_ty ts) = of_ty (s ++ List.concat ts).
Proof.
  unfold r_tensor_iter; cbn [flat_map].
  rewrite r_iter_of_ty, flat_map_iter_of_ty, <- map_app. reflexivity.
Qed.

Lemma concat_repeat_pow t n : List.concat (repeat t n) = ty_pow t n.
Proof. induction n; cbn; congruence. Qed.

Lemma map_repeat' A B (f : A -> B) x n : map f (repeat x n) = repeat (f x) n.
Proof. induction n; cbn; congruence. Qed.

Lemma r_repeat_of_ty t n : r_repeat (of_ty t) n = of_ty (ty_pow t n).
Proof.
  unfold r_repeat. change r_empty with (of_ty []).
  rewrite <- map_repeat', r_tensor_iter_of_ty, concat_repeat_pow. reflexivity.
Qed.

Lemma r_len_of_ty t : r_len (of_ty t) = List.length t.
Proof. destruct t as [|a [|b t]]; unfold r_len, of_ty; cbn; rewrite ?map_length; reflexivity. Qed.

(** rotation *)
Lemma r_rotate_of_atom z a : r_rotate z (of_atom a) = of_atom (rot_atom z a).
Proof.
  destruct a as [n k]. unfold of_atom, rot_atom, r_atom. cbn [fst snd r_rotate is_empty is_atomic orb].
  destruct (Z.eqb_spec z 0) as [->|]; [now rewrite Z.add_0_r|reflexivity].
Qed.

Lemma rot_atom_0 a : rot_atom 0 a = a.
Proof. destruct a; unfold rot_atom; cbn; now rewrite Z.add_0_r. Qed.

Lemma rot_atom_add y z a : rot_atom y (rot_atom z a) = rot_atom (y + z) a.
Proof. destruct a; unfold rot_atom; cbn; f_equal; lia. Qed.

Lemma rot_0 t : rot 0 t = t.
Proof. unfold rot; cbn. rewrite (map_ext _ (fun x => x)); [apply map_id|apply rot_atom_0]. Qed.

Lemma rot_add y z t : rot y (rot z t) = rot (y + z) t.
Proof.
  unfold rot. rewrite Z.odd_add.
  destruct (Z.odd y), (Z.odd z); cbn; rewrite <- ?map_rev, ?rev_involutive, map_map;
    apply map_ext; intros; apply rot_atom_add.
Qed.

Lemma rot_app z s t : rot z (s ++ t) = if Z.odd z then rot z t ++ rot z s else rot z s ++ rot z t.
Proof.
  unfold rot; destruct (Z.odd z); [rewrite rev_app_distr|]; apply map_app.
Qed.

Lemma rot_nil z : rot z [] = [].
Proof. unfold rot; destruct (Z.odd z); reflexivity. Qed.

Lemma rot_length z t : List.length (rot z t) = List.length t.
Proof. unfold rot; destruct (Z.odd z); rewrite map_length, ?rev_length; reflexivity. Qed.

Lemma rot_single z a : rot z [a] = [rot_atom z a].
Proof. unfold rot; destruct (Z.odd z); reflexivity. Qed.

Lemma rot_lr t : rot 1 (rot (-1) t) = t.
Proof. now rewrite rot_add, rot_0. Qed.
Lemma rot_rl t : rot (-1) (rot 1 t) = t.
Proof. now rewrite rot_add, rot_0. Qed.

Lemma rot_inj z s t : rot z s = rot z t -> s = t.
Proof.
  intros H. apply (f_equal (rot (- z))) in H. rewrite !rot_add in H.
  replace (- z + z)%Z with 0%Z in H by lia. now rewrite !rot_0 in H.
Qed.

Lemma rot_pow z t n : List.length t = 1 -> rot z (ty_pow t n) = ty_pow (rot z t) n.
Proof.
  intros Ht. destruct t as [|a [|b t]]; cbn in Ht; try discriminate. rewrite rot_single.
  induction n as [|n IH]; cbn [ty_pow]; [apply rot_nil|].
  rewrite rot_app, IH, rot_single. destruct (Z.odd z); [|reflexivity].
  clear. induction n as [|n IH]; cbn in *; [reflexivity|]. now rewrite IH.
Qed.

Lemma ty_pow_length t n : List.length (ty_pow t n) = n * List.length t.
Proof. induction n; cbn; [reflexivity|]. rewrite app_length; lia. Qed.

Lemma ty_pow_app t m n : ty_pow t (m + n) = ty_pow t m ++ ty_pow t n.
Proof. induction m; cbn; [reflexivity|]. now rewrite IHm, app_assoc. Qed.

Lemma map_rotate_atoms z l : map (r_rotate z) (map of_atom l) = map of_atom (map (rot_atom z) l).
Proof. rewrite !map_map. apply map_ext; intros; apply r_rotate_of_atom. Qed.

Lemma r_rotate_of_ty z t : r_rotate z (of_ty t) = of_ty (rot z t).
Proof.
  destruct t as [|a [|b t]].
  - now rewrite rot_nil.
  - rewrite rot_single. unfold of_ty; cbn [map fromiter]. apply r_rotate_of_atom.
  - destruct (Z.eqb_spec z 0) as [->|Hz].
    + now rewrite rot_0.
    + apply Z.eqb_neq in Hz.
      assert (L : List.length (rot z (a :: b :: t)) = S (S (List.length t))) by now rewrite rot_length.
      unfold of_ty at 1. cbn [map fromiter].
      change (RTy None (of_atom a :: of_atom b :: map of_atom t) 0)
        with (RTy None (map of_atom (a :: b :: t)) 0).
      cbn [r_rotate is_empty is_atomic map]. rewrite Hz. cbn [orb].
      change (r_rotate z (of_atom a) :: r_rotate z (of_atom b) :: map (r_rotate z) (map of_atom t))
        with (map (r_rotate z) (map of_atom (a :: b :: t))).
      rewrite map_rotate_atoms. unfold of_ty.
      destruct (rot z (a :: b :: t)) as [|c [|d l]] eqn:E; cbn in L; try discriminate.
      cbn [map fromiter]. f_equal.
      change (of_atom c :: of_atom d :: map of_atom l) with (map of_atom (c :: d :: l)).
      rewrite <- E. unfold rot. destruct (Z.odd z); [|reflexivity].
      now rewrite !map_rev.
Qed.

(** insert / replace *)
From Verif Require Import PyFacts.

Lemma is_empty_of_ty t : is_empty (of_ty t) = match t with [] => true | _ => false end.
Proof. destruct t as [|a [|b t]]; reflexivity. Qed.

Lemma r_insert_of_ty t u i : (0 <= i <= Z.of_nat (List.length t))%Z ->
  r_insert (of_ty t) (of_ty u) i =
  Ok (of_ty (firstn (Z.to_nat i) t ++ u ++ skipn (Z.to_nat i) t)).
Proof.
  intros H. unfold r_insert. rewrite r_len_of_ty, is_empty_of_ty.
  destruct (Z.leb_spec i (Z.of_nat (List.length t))) as [_|]; [|lia]. cbn [negb].
  destruct t as [|a t].
  { rewrite firstn_nil, skipn_nil, app_nil_r. reflexivity. }
  destruct (Z.eqb_spec i 0) as [->|Hi].
  { rewrite r_tensor_of_ty. reflexivity. }
  destruct (Z.eqb_spec i (Z.of_nat (List.length (a :: t)))) as [->|Hl].
  { rewrite r_tensor_of_ty, Nat2Z.id, firstn_all, skipn_all, app_nil_r. reflexivity. }
  destruct t as [|b t]; [cbn in *; lia|].
  change (r_objects (of_ty (a :: b :: t))) with (map of_atom (a :: b :: t)).
  rewrite py_slice_stop_pos, py_slice_start_pos by lia.
  rewrite r_iter_of_ty, firstn_map, skipn_map, <- !map_app. reflexivity.
Qed.

Lemma r_insert_neg_of_ty t u i : (i < 0)%Z -> 2 <= List.length t ->
  r_insert (of_ty t) (of_ty u) i =
  Ok (of_ty (firstn (List.length t - Z.to_nat (- i)) t ++ u
             ++ skipn (List.length t - Z.to_nat (- i)) t)).
Proof.
  intros H Hl. unfold r_insert. rewrite r_len_of_ty, is_empty_of_ty.
  destruct (Z.leb_spec i (Z.of_nat (List.length t))) as [_|]; [|lia]. cbn [negb].
  destruct t as [|a [|b t]]; cbn in Hl; try lia.
  destruct (Z.eqb_spec i 0) as [->|Hi]; [lia|].
  destruct (Z.eqb_spec i (Z.of_nat (List.length (a :: b :: t)))) as [->|_]; [lia|].
  change (r_objects (of_ty (a :: b :: t))) with (map of_atom (a :: b :: t)).
  rewrite py_slice_stop, py_slice_start, adj_neg, map_length by lia.
  rewrite r_iter_of_ty, firstn_map, skipn_map, <- !map_app. reflexivity.
Qed.

Lemma r_insert_range t u i : (Z.of_nat (r_len t) < i)%Z -> r_insert t u i = Err IndexError.
Proof.
  intros H. unfold r_insert. destruct (Z.leb_spec i (Z.of_nat (r_len t))); [lia|reflexivity].
Qed.

Lemma r_replace_of_ty t u i : (0 <= i < Z.of_nat (List.length t))%Z ->
  r_replace (of_ty t) (of_ty u) i =
  Ok (of_ty (firstn (Z.to_nat i) t ++ u ++ skipn (S (Z.to_nat i)) t)).
Proof.
  intros H. unfold r_replace. rewrite r_len_of_ty, is_empty_of_ty.
  destruct (Z.leb_spec i (Z.of_nat (List.length t))) as [_|]; [|lia].
  rewrite Z.geb_leb. destruct (Z.leb_spec 0 i) as [_|]; [|lia]. cbn [negb andb].
  destruct t as [|a t]; [cbn in *; lia|].
  destruct t as [|b t].
  { assert (i = 0%Z) by (cbn in *; lia). subst. cbn [Z.to_nat firstn app skipn].
    cbn [of_ty map fromiter of_atom r_atom r_objects List.length Nat.eqb Z.eqb].
    change (py_slice (@nil rty) (Some 1%Z) None) with (@nil rty).
    rewrite r_iter_of_ty, !app_nil_r. reflexivity. }
  change (r_objects (of_ty (a :: b :: t))) with (map of_atom (a :: b :: t)).
  rewrite map_length. cbn [List.length Nat.eqb].
  destruct (Z.eqb_spec i 0) as [->|Hi].
  { rewrite py_slice_start_pos by lia. rewrite r_iter_of_ty, skipn_map, <- map_app. reflexivity. }
  destruct (Z.eqb_spec i (Z.of_nat (S (S (List.length t))))) as [->|_]; [cbn in *; lia|].
  rewrite py_slice_stop_pos, py_slice_start_pos by lia.
  replace (Z.to_nat (i + 1)) with (S (Z.to_nat i)) by lia.
  rewrite r_iter_of_ty, firstn_map, skipn_map, <- !map_app. reflexivity.
Qed.

Lemma r_replace_range t u i : (i < 0 \/ Z.of_nat (r_len t) < i)%Z -> r_replace t u i = Err IndexError.
Proof.
  intros H. unfold r_replace. rewrite Z.geb_leb.
  destruct (Z.leb_spec i (Z.of_nat (r_len t))), (Z.leb_spec 0 i); try reflexivity; lia.
Qed.

(** what the code does at [index = len]: it overwrites the last factor *)
Lemma r_replace_at_len t u a : 
  r_replace (of_ty (t ++ [a])) (of_ty u) (Z.of_nat (S (List.length t))) = Ok (of_ty (t ++ u)).
Proof.
  unfold r_replace. rewrite r_len_of_ty, is_empty_of_ty, app_length. cbn [List.length].
  rewrite Nat.add_1_r, Z.leb_refl, Z.geb_leb.
  destruct (Z.leb_spec 0 (Z.of_nat (S (List.length t)))) as [_|]; [|lia]. cbn [andb negb].
  destruct t as [|b t].
  { cbn. change (py_slice (@nil rty) None (Some (-1)%Z)) with (@nil rty).
    rewrite r_iter_of_ty. reflexivity. }
  cbn [app]. destruct (t ++ [a]) as [|c l] eqn:E; [destruct t; discriminate|].
  change (r_objects (of_ty (b :: c :: l))) with (map of_atom (b :: c :: l)).
  rewrite map_length, <- E. cbn [List.length].
  assert (L : List.length (t ++ [a]) = S (List.length t)) by (rewrite app_length; cbn; lia).
  rewrite L. cbn [Nat.eqb]. rewrite Z.eqb_refl.
  destruct (Z.eqb_spec (Z.of_nat (S (S (List.length t)))) 0) as [|_]; [lia|].
  rewrite py_slice_stop, adj_neg, map_length, firstn_map by lia. cbn [List.length]. rewrite L.
  replace (S (S (List.length t)) - Z.to_nat (- -1)) with (List.length (b :: t)) by (change (Z.to_nat (- -1)) with 1; cbn [List.length]; lia).
  replace (b :: t ++ [a]) with ((b :: t) ++ [a]) by reflexivity.
  rewrite firstn_app, firstn_all, Nat.sub_diag. cbn [firstn]. rewrite app_nil_r.
  rewrite r_iter_of_ty, <- map_app. reflexivity.
Qed.

Lemma flat_fromiter l : forallb is_atomic l = true -> flat (fromiter l) = true.
Proof.
  intros H. rewrite <- (map_of_atom_factor _ H).
  change (fromiter (map of_atom (map factor l))) with (of_ty (map factor l)). apply of_ty_flat.
Qed.

Lemma r_slice_of_ty t a b : r_slice (of_ty t) a b = of_ty (py_slice t a b).
Proof. unfold r_slice. rewrite r_iter_of_ty, py_slice_map. reflexivity. Qed.

Lemma r_unwind_of_atom a : r_unwind (of_atom a) = of_atom (fst a, 0%Z).
Proof.
  destruct a as [n z]. change (r_unwind (of_atom (n, z))) with (r_rotate (- z) (of_atom (n, z))).
  rewrite r_rotate_of_atom. unfold rot_atom. cbn [fst snd]. now rewrite Z.add_opp_diag_r.
Qed.

(** Raw statements of the monoid laws, transported along [of_ty]. *)
Ltac to_ty t H := rewrite <- (of_ty_factors t H) in *; clear H; generalize dependent (factors t); intros.

Lemma flat_lift1 (P : rty -> Prop) : (forall l, P (of_ty l)) -> forall t, flat t = true -> P t.
Proof. intros H t Ht. rewrite <- (of_ty_factors _ Ht). apply H. Qed.
Lemma flat_lift2 (P : rty -> rty -> Prop) : (forall k l, P (of_ty k) (of_ty l)) ->
  forall s t, flat s = true -> flat t = true -> P s t.
Proof. intros H s t Hs Ht. rewrite <- (of_ty_factors _ Ht), <- (of_ty_factors _ Hs). apply H. Qed.
Lemma flat_lift3 (P : rty -> rty -> rty -> Prop) : (forall j k l, P (of_ty j) (of_ty k) (of_ty l)) ->
  forall s t u, flat s = true -> flat t = true -> flat u = true -> P s t u.
Proof.
  intros H s t u Hs Ht Hu.
  rewrite <- (of_ty_factors _ Ht), <- (of_ty_factors _ Hs), <- (of_ty_factors _ Hu). apply H.
Qed.

Lemma tensor_assoc : forall s t u, flat s = true -> flat t = true -> flat u = true ->
  r_tensor (r_tensor s t) u = r_tensor s (r_tensor t u).
Proof. apply flat_lift3; intros. now rewrite !r_tensor_of_ty, app_assoc. Qed.

Lemma tensor_unit : forall t, flat t = true -> r_tensor r_empty t = t /\ r_tensor t r_empty = t.
Proof.
  apply flat_lift1; intros. change r_empty with (of_ty []).
  now rewrite !r_tensor_of_ty, app_nil_r.
Qed.

Lemma tensor_factors : forall s t, flat s = true -> flat t = true ->
  flat (r_tensor s t) = true /\ factors (r_tensor s t) = factors s ++ factors t
  /\ r_len (r_tensor s t) = r_len s + r_len t.
Proof.
  apply flat_lift2; intros. rewrite r_tensor_of_ty, !factors_of_ty, !r_len_of_ty, app_length.
  auto using of_ty_flat.
Qed.

Lemma tensor_many : forall s ts, flat s = true -> Forall (fun t => flat t = true) ts ->
  r_tensor_iter s ts = fold_left r_tensor ts s /\
  flat (r_tensor_iter s ts) = true /\
  factors (r_tensor_iter s ts) = factors s ++ List.concat (map factors ts).
Proof.
  intros s ts Hs Hts.
  assert (E : ts = map of_ty (map factors ts)).
  { rewrite map_map. clear Hs. induction Hts as [|t ts Ht Hts IH]; cbn; [reflexivity|].
    rewrite of_ty_factors by assumption. congruence. }
  rewrite <- (of_ty_factors _ Hs). generalize dependent (factors s); intros l.
  rewrite E. generalize (map factors ts); intros ls. clear.
  rewrite r_tensor_iter_of_ty, !factors_of_ty. split; [|split].
  - revert l; induction ls as [|k ls IH]; intros l; cbn; [now rewrite app_nil_r|].
    rewrite r_tensor_of_ty, <- IH. now rewrite app_assoc.
  - apply of_ty_flat.
  - rewrite map_map. f_equal. f_equal. rewrite (map_ext _ (fun x => x)); [now rewrite map_id|].
    apply factors_of_ty.
Qed.

Lemma repeat_factors : forall t n, flat t = true ->
  flat (r_repeat t n) = true /\ factors (r_repeat t n) = List.concat (repeat (factors t) n).
Proof.
  intros t n Ht. rewrite <- (of_ty_factors _ Ht). generalize (factors t); intros l.
  rewrite r_repeat_of_ty, !factors_of_ty, concat_repeat_pow. auto using of_ty_flat.
Qed.

Lemma rotate_flat : forall z t, flat t = true -> flat (r_rotate z t) = true.
Proof. intros z. apply flat_lift1; intros. rewrite r_rotate_of_ty. apply of_ty_flat. Qed.

Lemma rotate_add : forall a b t, flat t = true -> r_rotate b (r_rotate a t) = r_rotate (a + b) t.
Proof. intros a b. apply flat_lift1; intros. rewrite !r_rotate_of_ty, rot_add. now rewrite Z.add_comm. Qed.

Lemma rotate_adj : forall t, flat t = true -> r_r (r_l t) = t /\ r_l (r_r t) = t.
Proof.
  apply flat_lift1; intros. unfold r_r, r_l. rewrite !r_rotate_of_ty, rot_lr, rot_rl. auto.
Qed.

Lemma rotate_tensor : forall s t, flat s = true -> flat t = true -> forall z,
  r_rotate z (r_tensor s t) =
  if Z.odd z then r_tensor (r_rotate z t) (r_rotate z s) else r_tensor (r_rotate z s) (r_rotate z t).
Proof.
  apply (flat_lift2 (fun s t => forall z, _ = _)); intros.
  rewrite !r_rotate_of_ty, !r_tensor_of_ty, r_rotate_of_ty, rot_app. now destruct (Z.odd z).
Qed.

Lemma rotate_factors : forall t, flat t = true -> forall z,
  factors (r_rotate z t) =
  map (fun '(n, k) => (n, (k + z)%Z)) (if Z.odd z then rev (factors t) else factors t).
Proof.
  apply (flat_lift1 (fun t => forall z, _ = _)); intros. rewrite r_rotate_of_ty, !factors_of_ty.
  apply map_ext; intros []; reflexivity.
Qed.

Lemma insert_spec : forall t u, flat t = true -> flat u = true -> forall i,
  (0 <= i <= Z.of_nat (r_len t))%Z ->
  exists v, r_insert t u i = Ok v /\ flat v = true /\
    factors v = firstn (Z.to_nat i) (factors t) ++ factors u ++ skipn (Z.to_nat i) (factors t).
Proof.
  intros t u Ht Hu i Hi.
  pose proof (of_ty_factors _ Ht) as Et; pose proof (of_ty_factors _ Hu) as Eu.
  rewrite <- Et, r_len_of_ty in Hi. pose proof (r_insert_of_ty _ (factors u) Hi) as E.
  rewrite Et, Eu in E. eexists; split; [exact E|]. rewrite factors_of_ty. auto using of_ty_flat.
Qed.

Lemma insert_neg_spec : forall t u, flat t = true -> flat u = true -> forall i,
  (i < 0)%Z -> 2 <= r_len t ->
  exists v, r_insert t u i = Ok v /\ flat v = true /\
    let p := r_len t - Z.to_nat (- i) in
    factors v = firstn p (factors t) ++ factors u ++ skipn p (factors t).
Proof.
  intros t u Ht Hu i Hi Hl.
  pose proof (of_ty_factors _ Ht) as Et; pose proof (of_ty_factors _ Hu) as Eu.
  rewrite <- Et, r_len_of_ty in Hl. pose proof (r_insert_neg_of_ty _ (factors u) Hi Hl) as E.
  rewrite Et, Eu in E. eexists; split; [exact E|]. cbv zeta.
  assert (L : r_len t = List.length (factors t)) by (rewrite <- (r_len_of_ty (factors t)); congruence).
  rewrite L.
  rewrite factors_of_ty. auto using of_ty_flat.
Qed.

Lemma replace_spec : forall t u, flat t = true -> flat u = true -> forall i,
  (0 <= i < Z.of_nat (r_len t))%Z ->
  exists v, r_replace t u i = Ok v /\ flat v = true /\
    factors v = firstn (Z.to_nat i) (factors t) ++ factors u ++ skipn (S (Z.to_nat i)) (factors t).
Proof.
  intros t u Ht Hu i Hi.
  pose proof (of_ty_factors _ Ht) as Et; pose proof (of_ty_factors _ Hu) as Eu.
  rewrite <- Et, r_len_of_ty in Hi. pose proof (r_replace_of_ty _ (factors u) Hi) as E.
  rewrite Et, Eu in E. eexists; split; [exact E|]. rewrite factors_of_ty. auto using of_ty_flat.
Qed.

Lemma replace_at_len_refuted : forall t u a,
  r_len (of_ty (t ++ [a])) = S (List.length t) /\
  r_replace (of_ty (t ++ [a])) (of_ty u) (Z.of_nat (S (List.length t))) = Ok (of_ty (t ++ u)).
Proof.
  intros; split; [|apply r_replace_at_len]. rewrite r_len_of_ty, app_length; cbn; lia.
Qed.

Lemma over_under s t : flat s = true -> flat t = true ->
  flat (r_over s t) = true /\ flat (r_under s t) = true /\
  factors (r_over s t) = factors s ++ map (fun '(n, k) => (n, (k - 1)%Z)) (rev (factors t)) /\
  factors (r_under s t) = map (fun '(n, k) => (n, (k + 1)%Z)) (rev (factors s)) ++ factors t.
Proof.
  revert s t. apply flat_lift2. intros s t.
  unfold r_over, r_under, r_l, r_r. rewrite !r_rotate_of_ty, !r_tensor_of_ty, !factors_of_ty, !of_ty_flat. do 2 (split; [reflexivity|]).
  unfold rot. cbn [Z.odd Z.opp]. split; f_equal; apply map_ext; now intros [n k].
Qed.
