(** Properties C04-C10, C17, C18: diagrams.  Statements only. *)
From Verif Require Import PyBase TyModel TyFacts DiagModel DiagSpec DiagFacts DiagRot DiagPerm DiagCups DiagMisc
  Cat CatFacts CatRel CatDual.

(** ** C04 *)
Theorem C04_built_diagrams_are_well_typed : forall d, built d -> wf d.
Proof. exact built_wf. Qed.
Print Assumptions C04_built_diagrams_are_well_typed.

Theorem C04_then_raises_iff_mismatch : forall a b,
  (d_then a b = Err ValueError <-> cod a <> dom b) /\
  (cod a = dom b -> d_then a b = Ok (Diag (dom a) (cod b) (layers a ++ layers b))).
Proof. intros a b. exact (conj (d_then_err a b) (@d_then_ok a b)). Qed.
Print Assumptions C04_then_raises_iff_mismatch.

Theorem C04_variadic_forms_are_iterated : forall a ds,
  tensor_list a ds = fold_left tensor ds a /\ then_list a ds = foldM d_then ds a.
Proof. intros a ds. exact (conj (tensor_list_fold a ds) (then_list_fold a ds)). Qed.
Print Assumptions C04_variadic_forms_are_iterated.

Theorem C04_typing_of_composites : forall a b r s t u v,
  (typed a r s -> typed b s t -> exists c, d_then a b = Ok c /\ typed c r t) /\
  (typed a r s -> typed b u v -> typed (tensor a b) (r ++ u) (s ++ v)) /\
  typed (id r) r r.
Proof. intros. exact (conj (@typed_then a b r s t) (conj (@typed_tensor a b r s u v) (typed_id r))). Qed.
Print Assumptions C04_typing_of_composites.

Definition n_ : atom := ("n"%string, 0%Z).
Definition s_ : atom := ("s"%string, 0%Z).
Definition ex_d : diagram :=
  tensor (to_diag (Word "John" [n_] 0)) (to_diag (Word "sleeps" [rot_atom 1 n_; s_] 0)).
Definition ex_cup : diagram := tensor (to_diag (Cup n_ (rot_atom 1 n_) false)) (id [s_]).
Example C04_nonvacuous : exists c, d_then ex_d ex_cup = Ok c /\ built c /\ List.length (layers c) = 3
  /\ dom c = [] /\ cod c = [s_].
Proof.
  eexists. split; [reflexivity|]. split; [|repeat split].
  eapply (@built_then ex_d ex_cup); [apply built_tensor; apply built_box; exact I| |reflexivity].
  apply built_tensor; [apply built_box; reflexivity|apply built_id].
Qed.

(** ** C05 *)
Theorem C05_then_monoid : forall a b c,
  (do x <- d_then a b; d_then x c) = (do y <- d_then b c; d_then a y) /\
  d_then (id (dom a)) a = Ok a /\ d_then a (id (cod a)) = Ok a.
Proof. intros a b c. exact (conj (then_assoc a b c) (conj (then_id_l a) (then_id_r a))). Qed.
Print Assumptions C05_then_monoid.

Theorem C05_tensor_monoid : forall a b c s t,
  tensor (tensor a b) c = tensor a (tensor b c) /\
  tensor (id []) a = a /\ tensor a (id []) = a /\ tensor (id s) (id t) = id (s ++ t).
Proof.
  intros a b c s t.
  exact (conj (tensor_assoc_eq a b c) (conj (tensor_id_l a) (conj (tensor_id_r a) (tensor_ids s t)))).
Qed.
Print Assumptions C05_tensor_monoid.

Theorem C05_denotation_is_monoidal : forall (C : smc) (I : interp C) a b,
  wf a -> wf b ->
  heq C (den I (tensor a b)) (tns C (den I a) (den I b)) /\
  (forall c, d_then a b = Ok c -> heq C (den I c) (cmp C (den I a) (den I b))) /\
  src C (den I a) = obt C (obi I) (dom a) /\ tgt C (den I a) = obt C (obi I) (cod a).
Proof.
  intros C I a b Wa Wb.
  exact (conj (den_tensor I Wa Wb) (conj (fun c => @den_then C I a b c Wa Wb) (conj (den_src I Wa) (den_tgt I Wa)))).
Qed.
Print Assumptions C05_denotation_is_monoidal.

Theorem C05_interchange_up_to_meaning : forall (C : smc) (I : interp C) f g h k x y r,
  wf f -> wf g -> wf h -> wf k ->
  d_then f h = Ok x -> d_then g k = Ok y -> d_then (tensor f g) (tensor h k) = Ok r ->
  heq C (den I (tensor x y)) (den I r).
Proof. intros C I f g h k x y r Wf Wg Wh Wk Hx Hy Hr. exact (den_interchange I Wf Wg Wh Wk Hx Hy eq_refl Hr). Qed.
Print Assumptions C05_interchange_up_to_meaning.

Example C05_nonvacuous : exists r,
  let f := to_diag (Word "a" [n_] 0) in let g := to_diag (Word "b" [s_] 0) in
  let h := to_diag (Box "h" [n_] [s_] 0) in let k := to_diag (Box "k" [s_] [n_] 0) in
  d_then (tensor f g) (tensor h k) = Ok r /\
  is_ok (d_then f h) = true /\ is_ok (d_then g k) = true /\
  (do x <- d_then f h; do y <- d_then g k; Ok (tensor x y)) <> Ok r /\
  rigid (rel_interp (V := bool) (fun _ _ y => y = [true])).
Proof.
  eexists. cbv zeta. split; [reflexivity|]. split; [reflexivity|]. split; [reflexivity|].
  split; [discriminate|apply rel_rigid].
Qed.

(** ** C06 *)
Theorem C06_dagger_involutive : forall d,
  wf d -> All (fun x => dag_normal (l_box x)) (layers d) -> d_dagger (d_dagger d) = d.
Proof. exact d_dagger_invol. Qed.
Print Assumptions C06_dagger_involutive.

Theorem C06_dagger_of_boxes : forall b,
  b_dom (b_dagger b) = b_cod b /\ b_cod (b_dagger b) = b_dom b /\
  (box_ok b -> box_ok (b_dagger b)) /\ (dag_normal b -> b_dagger (b_dagger b) = b).
Proof.
  intro b. exact (conj (b_dom_dagger b) (conj (b_cod_dagger b) (conj (@box_ok_dagger b) (@b_dagger_invol b)))).
Qed.
Print Assumptions C06_dagger_of_boxes.

Theorem C06_dagger_contravariant : forall a b c, wf a -> wf b -> d_then a b = Ok c ->
  d_then (d_dagger b) (d_dagger a) = Ok (d_dagger c).
Proof. exact d_dagger_then. Qed.
Print Assumptions C06_dagger_contravariant.

Theorem C06_dagger_well_typed : forall d, wf d ->
  d_dagger d = Diag (cod d) (dom d) (map l_dagger (rev (layers d))) /\ wf (d_dagger d).
Proof. intros d W. exact (conj (d_dagger_eq W) (wf_dagger W)). Qed.
Print Assumptions C06_dagger_well_typed.

Example C06_nonvacuous : wf ex_d /\ All (fun x => dag_normal (l_box x)) (layers ex_d) /\ d_dagger ex_d <> ex_d.
Proof. repeat split; try exact I. discriminate. Qed.

(** ** C07 *)
Theorem C07_rotate_additive_partial : forall a b x,
  (small_frames x -> b_rotate b (b_rotate a x) = b_rotate (b + a) x) /\
  (small_frames x -> b_rotate 0 x = x).
Proof. intros a b x. exact (conj (@b_rotate_add a b x) (@b_rotate_0 x)). Qed.
Print Assumptions C07_rotate_additive_partial.

Theorem C07_rotate_diagram_additive_partial : forall a b d,
  All (fun x => small_frames (l_box x)) (layers d) ->
  d_rotate b (d_rotate a d) = d_rotate (b + a) d /\ d_rotate 0 d = d.
Proof. intros a b d H. exact (conj (d_rotate_add a b d H) (d_rotate_0 d H)). Qed.
Print Assumptions C07_rotate_diagram_additive_partial.

(** holds for every box, frames included *)
Theorem C07_adjoints_cancel : forall z b d,
  b_rotate (- z) (b_rotate z b) = b /\ d_rotate (- z) (d_rotate z d) = d.
Proof. intros z b d. exact (conj (b_rotate_neg z b) (d_rotate_neg z d)). Qed.
Print Assumptions C07_adjoints_cancel.

Theorem C07_rotate_well_typed : forall z d, wf d ->
  wf (d_rotate z d) /\ dom (d_rotate z d) = rot z (dom d) /\ cod (d_rotate z d) = rot z (cod d).
Proof. intros z d W. exact (conj (wf_rotate z W) (conj eq_refl eq_refl)). Qed.
Print Assumptions C07_rotate_well_typed.

Theorem C07_rotate_boxes : forall z b,
  b_dom (b_rotate z b) = rot z (b_dom b) /\ b_cod (b_rotate z b) = rot z (b_cod b) /\
  (box_ok b -> box_ok (b_rotate z b)) /\ b_rotate z (b_dagger b) = b_dagger (b_rotate z b).
Proof.
  intros z b. exact (conj (b_dom_rotate z b) (conj (b_cod_rotate z b) (conj (@box_ok_rotate z b) (b_rotate_dagger z b)))).
Qed.
Print Assumptions C07_rotate_boxes.

Theorem C07_rotate_dagger_then : forall z a b c, wf a ->
  d_rotate z (d_dagger a) = d_dagger (d_rotate z a) /\
  (d_then a b = Ok c -> d_then (d_rotate z a) (d_rotate z b) = Ok (d_rotate z c)).
Proof. intros z a b c W. exact (conj (d_rotate_dagger z W) (@rotate_then z a b c)). Qed.
Print Assumptions C07_rotate_dagger_then.

(** rotate(0) is not the identity on a frame with two components *)
Theorem C07_rotate_zero_frame_refuted : exists b, box_ok b /\ b_rotate 0 b <> b.
Proof. exact (ex_intro _ two_frame (conj (conj I (conj I I)) two_frame_rot0)). Qed.
Print Assumptions C07_rotate_zero_frame_refuted.

Example C07_nonvacuous : small_frames (Frame "f" [n_] [s_] [CBox (Word "w" [n_] 0)] 0) /\
  b_rotate 1 (Cup n_ (rot_atom 1 n_) false) = Cup (rot_atom 2 n_) (rot_atom 1 n_) true.
Proof. repeat split; cbn; auto. Qed.

(** ** C08 *)
Theorem C08_slices_are_well_typed : forall d a b, wf d ->
  exists x, d_slice d a b = Ok x /\ wf x /\ layers x = PyBase.py_slice (layers d) a b.
Proof. intros d a b W. exact (d_slice_wf a b W). Qed.
Print Assumptions C08_slices_are_well_typed.

Theorem C08_slices_recompose : forall d i, wf d ->
  exists x y, d_slice d None (Some i) = Ok x /\ d_slice d (Some i) None = Ok y /\ d_then x y = Ok d.
Proof. intros d i W. exact (d_slice_split i W). Qed.
Print Assumptions C08_slices_recompose.

Theorem C08_full_reverse_is_dagger : forall d, wf d -> d_reverse d = d_dagger d.
Proof. exact d_reverse_dagger. Qed.
Print Assumptions C08_full_reverse_is_dagger.

(** an integer index is one layer, counted from the end if negative, and out of range raises *)
Theorem C08_index : forall d k, wf d -> let n := Z.of_nat (List.length (layers d)) in
  ((- n <= k < n)%Z -> exists x l, d_index d k = Ok x /\ wf x /\ layers x = [l] /\
     nth_error (layers d) (Z.to_nat (if (k <? 0)%Z then k + n else k)%Z) = Some l) /\
  (~ (- n <= k < n)%Z -> d_index d k = Err IndexError).
Proof. exact d_index_spec. Qed.
Print Assumptions C08_index.

(** a proper reversed slice keeps the end types of the whole diagram *)
Theorem C08_reversed_slice_refuted : exists d a, wf d /\ ~ wf (d_reverse_from d a).
Proof.
  exists ex_d, 0. split; [repeat split; exact I|]. intros [H _]. cbn in H. destruct H as [H _]. discriminate H.
Qed.
Print Assumptions C08_reversed_slice_refuted.

Example C08_nonvacuous : wf ex_d /\ exists x, d_slice ex_d (Some (-1)%Z) None = Ok x /\ List.length (layers x) = 1.
Proof. split; [repeat split; exact I|]. eexists; split; reflexivity. Qed.

(** ** C09 *)
Theorem C09_permutation_routes_wires : forall t p, Permutation p (seq 0 (List.length t)) ->
  exists d, permutation t p = Ok d /\ wf d /\ dom d = t /\
    cod d = map (fun k => nth k t (EmptyString, 0%Z)) p /\
    forall X (dx : X) (v : list X), List.length v = List.length t ->
      run d v = Some (map (fun k => nth k v dx) p).
Proof. exact permutation_route. Qed.
Print Assumptions C09_permutation_routes_wires.

Theorem C09_invalid_permutation_rejected : forall t p, ~ Permutation p (seq 0 (List.length t)) ->
  permutation t p = Err ValueError.
Proof. exact permutation_invalid. Qed.
Print Assumptions C09_invalid_permutation_rejected.

Example C09_nonvacuous : exists d, permutation [n_; s_; n_; s_] [2; 0; 3; 1] = Ok d /\
  run d [10; 11; 12; 13] = Some [12; 10; 13; 11] /\ List.length (layers d) = 3.
Proof. eexists. repeat split. Qed.

(** ** C10 *)
Theorem C10_swap_exchanges_blocks : forall left right, exists d, swap left right = Ok d /\
  typed d (left ++ right) (right ++ left) /\
  forall X (u v : list X), List.length u = List.length left -> List.length v = List.length right ->
    run d (u ++ v) = Some (v ++ u).
Proof. exact swap_spec. Qed.
Print Assumptions C10_swap_exchanges_blocks.

(** cup number i joins wire n-1-i of the left block with wire i of the right block, innermost first *)
Theorem C10_cups_partial : forall right, exists d, cups (rot (-1) right) right false = Ok d /\
  typed d (rot (-1) right ++ right) [] /\
  layers d = map (fun i => (firstn (List.length right - 1 - i) (rot (-1) right),
                 Cup (nth (List.length right - 1 - i) (rot (-1) right) (EmptyString, 0%Z))
                     (nth i right (EmptyString, 0%Z)) false,
                 skipn (S i) right)) (seq 0 (List.length right)).
Proof.
  intro right. destruct (cups_typed right) as (d & E & T). exists d. split; [exact E|]. split; [exact T|].
  rewrite cups_eq in E. injection E as <-. exact (cup_layers_nth right).
Qed.
Print Assumptions C10_cups_partial.

Theorem C10_caps_partial : forall right, exists d, caps (rot 1 right) right false = Ok d /\
  typed d [] (rot 1 right ++ right) /\
  layers d = map (fun i => (firstn i (rot 1 right),
                 Cap (nth i (rot 1 right) (EmptyString, 0%Z))
                     (nth (List.length right - 1 - i) right (EmptyString, 0%Z)) false,
                 skipn (List.length right - i) right)) (seq 0 (List.length right)).
Proof.
  intro right. destruct (caps_typed right) as (d & E & T). exists d. split; [exact E|]. split; [exact T|].
  rewrite caps_eq in E. injection E as <-. exact (cap_layers_nth right).
Qed.
Print Assumptions C10_caps_partial.

Theorem C10_non_adjoint_rejected : forall left right,
  (left <> rot (-1) right -> cups left right false = Err ValueError) /\
  (left <> rot 1 right -> caps left right false = Err ValueError).
Proof. intros left right. exact (conj (@cups_err left right) (@caps_err left right)). Qed.
Print Assumptions C10_non_adjoint_rejected.

(** reversed orientation: fine on atomic types, always rejected on compound ones *)
(** cups and caps of compound types straighten whenever those of atomic types do *)
Theorem C10_compound_snakes : forall (C : smc) (I : interp C) t, rigid I ->
  exists ca cu e1 e2, caps t (rot (-1) t) false = Ok ca /\ cups (rot (-1) t) t false = Ok cu /\
    d_then (tensor ca (id t)) (tensor (id t) cu) = Ok e1 /\ heq C (den I e1) (idm C (obt C (obi I) t)) /\
    d_then (tensor (id (rot (-1) t)) ca) (tensor cu (id (rot (-1) t))) = Ok e2 /\ heq C (den I e2) (idm C (obt C (obi I) (rot (-1) t))).
Proof. intros C I t R. exact (compound_snakes R t). Qed.
Print Assumptions C10_compound_snakes.

Theorem C10_reversed_atomic_partial : forall r,
  cups [rot_atom 1 r] [r] true = Ok (to_diag (Cup (rot_atom 1 r) r true)) /\
  caps [rot_atom (-1) r] [r] true = Ok (to_diag (Cap (rot_atom (-1) r) r true)).
Proof. intro r. exact (conj (cups_reversed_atomic r) (caps_reversed_atomic r)). Qed.
Print Assumptions C10_reversed_atomic_partial.

Theorem C10_reversed_compound_refuted : forall a b left right,
  cups (a :: b :: left) right true = Err ValueError /\ caps (a :: b :: left) right true = Err ValueError.
Proof. intros a b l r. exact (conj (cups_reversed_compound a b l r) (caps_reversed_compound a b l r)). Qed.
Print Assumptions C10_reversed_compound_refuted.

Theorem C10_spider_well_typed : forall t n m, exists d, spider t n m = Ok d /\ typed d (ty_pow t n) (ty_pow t m).
Proof. exact spider_typed. Qed.
Print Assumptions C10_spider_well_typed.

Example C10_nonvacuous : exists d, spider [n_; s_] 2 3 = Ok d /\ List.length (layers d) = 6
  /\ dom d = [n_; s_; n_; s_] /\ cod d = [n_; s_; n_; s_; n_; s_].
Proof. eexists. repeat split. Qed.

(** ** C17 *)
Theorem C17_pregroup_diagram : forall words ms da ls rem',
  cup_run (flat_map snd words) da (seq 0 (List.length (flat_map snd words))) ms ls rem' ->
  exists d, create_pregroup_diagram words ms = Ok d /\ wf d /\ dom d = [] /\
    cod d = map (fun i => nth i (flat_map snd words) da) rem' /\
    layers d = word_layers [] words ++ ls.
Proof. exact create_pregroup_spec. Qed.
Print Assumptions C17_pregroup_diagram.

(** `is_pregroup`: words first, each right-most when it is added, then cups and swaps only *)
Theorem C17_is_pregroup : forall d, is_pregroup d = true <->
  dom d = [] /\ exists ws rest, layers d = ws ++ rest /\
    (forall l b r, In (l, b, r) ws -> r = [] /\ exists n c z, b = Word n c z) /\
    (forall l b r, In (l, b, r) rest -> (exists x y rv, b = Cup x y rv) \/ (exists x y, b = Swap x y)).
Proof. exact is_pregroup_spec. Qed.
Print Assumptions C17_is_pregroup.

(** what create_pregroup_diagram builds is a pregroup diagram *)
Theorem C17_created_is_pregroup : forall words ms da ls rem' d,
  cup_run (flat_map snd words) da (seq 0 (List.length (flat_map snd words))) ms ls rem' ->
  create_pregroup_diagram words ms = Ok d -> is_pregroup d = true.
Proof. exact create_is_pregroup. Qed.
Print Assumptions C17_created_is_pregroup.

Example C17_nonvacuous :
  let ws := [("John"%string, [n_]); ("likes"%string, [rot_atom 1 n_; s_; rot_atom (-1) n_]); ("Mary"%string, [n_])] in
  exists ls, cup_run (flat_map snd ws) n_ (seq 0 5) [(MCup, 3%Z, 4%Z); (MCup, 0%Z, 1%Z)] ls [2].
Proof.
  cbv zeta. eexists.
  apply (@cup_run_cons _ n_ [0;1;2] 3 4 [] [(MCup, 0%Z, 1%Z)]); [reflexivity|].
  apply (@cup_run_cons _ n_ [] 0 1 [2] []); [reflexivity|]. apply cup_run_nil.
Qed.

(** ** C18 *)
Theorem C18_transpose_typed : forall d s t, typed d s t ->
  (exists d', transpose d true = Ok d' /\ typed d' (rot (-1) t) (rot (-1) s)) /\
  (exists d', transpose d false = Ok d' /\ typed d' (rot 1 t) (rot 1 s)).
Proof. intros d s t T. exact (conj (transpose_l_typed T) (transpose_r_typed T)). Qed.
Print Assumptions C18_transpose_typed.

(** transposing to one side and back to the other gives the diagram again, in every category where cups and caps straighten *)
Theorem C18_transpose_back : forall (C : smc) (I : interp C) d s t, rigid I -> typed d s t ->
  (exists e e', transpose d false = Ok e /\ transpose e true = Ok e' /\ typed e' s t /\ heq C (den I e') (den I d)) /\
  (exists e e', transpose d true = Ok e /\ transpose e false = Ok e' /\ typed e' s t /\ heq C (den I e') (den I d)).
Proof. intros C I d s t R T. exact (conj (transpose_rl R T) (transpose_lr R T)). Qed.
Print Assumptions C18_transpose_back.

(** a curried diagram applied to its exponent again (through cups) is the diagram *)
Theorem C18_uncurry : forall (C : smc) (I : interp C) d base expo t, rigid I ->
  (typed d (base ++ expo) t -> expo <> [] ->
   exists c cu e, curry d (Z.of_nat (List.length expo)) true = Ok c /\ cups (rot (-1) expo) expo false = Ok cu /\
     d_then (tensor c (id expo)) (tensor (id t) cu) = Ok e /\ typed e (base ++ expo) t /\ heq C (den I e) (den I d)) /\
  (typed d (expo ++ base) t ->
   exists c cu e, curry d (Z.of_nat (List.length expo)) false = Ok c /\ cups expo (rot 1 expo) false = Ok cu /\
     d_then (tensor (id expo) c) (tensor cu (id t)) = Ok e /\ typed e (expo ++ base) t /\ heq C (den I e) (den I d)).
Proof. intros C I d base expo t R. split; intro T; [exact (uncurry_left R T)|exact (uncurry_right R T)]. Qed.
Print Assumptions C18_uncurry.

Theorem C18_curry_left : forall d base expo t, typed d (base ++ expo) t -> expo <> [] ->
  exists d', curry d (Z.of_nat (List.length expo)) true = Ok d' /\ typed d' base (t ++ rot (-1) expo).
Proof. exact curry_left_typed. Qed.
Print Assumptions C18_curry_left.

Theorem C18_curry_right : forall d base expo t, typed d (expo ++ base) t ->
  exists d', curry d (Z.of_nat (List.length expo)) false = Ok d' /\ typed d' base (rot 1 expo ++ t).
Proof. exact curry_right_typed. Qed.
Print Assumptions C18_curry_right.

(** curry(0, left=True) moves the whole domain instead of nothing *)
Theorem C18_curry_left_zero_refuted : forall d s t, typed d s t ->
  exists d', curry d 0 true = Ok d' /\ typed d' [] (t ++ rot (-1) s).
Proof. exact curry_left_zero. Qed.
Print Assumptions C18_curry_left_zero_refuted.

Example C18_back_nonvacuous : rigid (rel_interp (V := bool) (fun _ _ y => y = [true])) /\
  exists e e', transpose (to_diag (Box "f" [n_; s_] [s_] 0)) false = Ok e /\ transpose e true = Ok e' /\ List.length (layers e') = 7%nat.
Proof. split; [apply rel_rigid|]. eexists. eexists. split; [vm_compute; reflexivity|]. split; [vm_compute; reflexivity|]. reflexivity. Qed.
Example C18_nonvacuous : typed (to_diag (Box "f" [n_; s_] [s_] 0)) ([n_] ++ [s_]) [s_].
Proof. repeat split. Qed.
