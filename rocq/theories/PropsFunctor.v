(** Properties C14-C16: functors, their caches, and JSON round trips. *)
From Verif Require Import PyBase TyModel DiagModel DiagSpec BoxEq FunctorModel FunctorSpec FunctorCache FunctorFacts JsonModel JsonSpec JsonFacts.
Local Open Scope string_scope.

(** ** C14 *)

(** On types a functor is the monoid homomorphism determined by its object map, and it commutes
    with taking adjoints. *)
Theorem C14_functor_types : forall custom_ob ob,
  (forall n, custom_ob n = Ok (ob n)) ->
  (forall n, F_ty custom_ob [(n, 0%Z)] = Ok (ob n)) /\
  F_ty custom_ob [] = Ok [] /\
  (forall s t fs ft, F_ty custom_ob s = Ok fs -> F_ty custom_ob t = Ok ft -> F_ty custom_ob (s ++ t)%list = Ok (fs ++ ft)%list) /\
  (forall z t ft, F_ty custom_ob t = Ok ft -> F_ty custom_ob (rot z t) = Ok (rot z ft)).
Proof.
  intros co ob H. repeat split; intros; rewrite ?(F_ty_eq H) in *.
  - f_equal. rewrite Fo_single. apply TyFacts.rot_0.
  - rewrite Fo_app. inversion H0; inversion H1; reflexivity.
  - rewrite Fo_rot. inversion H0; reflexivity.
Qed.
Print Assumptions C14_functor_types.

(** With type-respecting callbacks, applying the functor to a well-typed diagram succeeds and gives a
    well-typed diagram between the images of its ends -- provided reversed cups and caps (those
    produced by daggers and odd rotations) sit on types whose image has at most one factor. *)
Theorem C14_functor_typed_partial : forall custom_ob custom_ar ob d,
  (forall n, custom_ob n = Ok (ob n)) ->
  wf d ->
  All (fun x => rev_ok ob (l_box x) /\ All (respects ob custom_ar) (basics (l_box x))) (layers d) ->
  exists e, F_diag custom_ob custom_ar d = Ok e /\ typed e (Fo ob (dom d)) (Fo ob (cod d)).
Proof. intros. now apply diag_typed. Qed.
Print Assumptions C14_functor_typed_partial.

(** The proviso is needed: the dagger of [Cap(n, n.l)] is a well-typed diagram with no boxes for the
    callbacks to map, but its image under n |-> n @ n raises ValueError. *)
Theorem C14_functor_typed_refuted : exists custom_ob custom_ar ob d,
  (forall n, custom_ob n = Ok (ob n)) /\ wf d /\
  All (fun x => All (respects ob custom_ar) (basics (l_box x))) (layers d) /\
  F_diag custom_ob custom_ar (d_dagger d) = Ok (Diag [] [("n", 0%Z); ("n", 0%Z); ("n", -1)%Z; ("n", -1)%Z]
     [([], Cap ("n", 0%Z) ("n", -1)%Z false, []); ([("n", 0%Z)], Cap ("n", 0%Z) ("n", -1)%Z false, [("n", -1)%Z])]) /\
  F_diag custom_ob custom_ar d = Err ValueError.
Proof.
  exists (fun n => Ok [(n, 0%Z); (n, 0%Z)]), (fun _ => Err KeyError), (fun n => [(n, 0%Z); (n, 0%Z)]),
    (d_dagger (to_diag (Cap ("n", 0%Z) ("n", (-1)%Z) false))).
  repeat split; vm_compute; auto.
Qed.
Print Assumptions C14_functor_typed_refuted.

(** Identities, composition and tensor are preserved on the nose, exceptions included. *)
Theorem C14_functor_monoidal : forall custom_ob custom_ar ob,
  (forall n, custom_ob n = Ok (ob n)) ->
  (forall t, F_diag custom_ob custom_ar (id t) = Ok (id (Fo ob t))) /\
  (forall b, F_diag custom_ob custom_ar (to_diag b) = F_box custom_ob custom_ar b) /\
  (forall a b c, wf a -> wf b -> d_then a b = Ok c ->
     F_diag custom_ob custom_ar c =
       (do x <- F_diag custom_ob custom_ar a; do y <- F_diag custom_ob custom_ar b; d_then x y)) /\
  (forall a b, wf a -> wf b ->
     F_diag custom_ob custom_ar (tensor a b) =
       (do x <- F_diag custom_ob custom_ar a; do y <- F_diag custom_ob custom_ar b; Ok (tensor x y))).
Proof.
  intros co ca ob H. repeat split; intros.
  - rewrite F_diag_id, (F_ty_eq H). reflexivity.
  - now apply (@F_to_diag co ca ob).
  - now apply (@F_then co ca ob).
  - now apply (@F_tensor co ca ob).
Qed.
Print Assumptions C14_functor_monoidal.

(** Cups and caps of arbitrary (compound) types go to the cups and caps of the image types; a swap or
    spider of atoms goes to the swap or spider of the image types. *)
Theorem C14_functor_structure : forall custom_ob custom_ar ob,
  (forall n, custom_ob n = Ok (ob n)) ->
  (forall t d, cups (rot (-1) t) t false = Ok d ->
     F_diag custom_ob custom_ar d = cups (rot (-1) (Fo ob t)) (Fo ob t) false) /\
  (forall t d, caps (rot 1 t) t false = Ok d ->
     F_diag custom_ob custom_ar d = caps (rot 1 (Fo ob t)) (Fo ob t) false) /\
  (forall l r, F_box custom_ob custom_ar (Swap l r) = swap (Fa ob l) (Fa ob r)) /\
  (forall t n m, F_box custom_ob custom_ar (Spider t n m) = spider (Fa ob t) n m).
Proof.
  intros co ca ob H. repeat split; intros.
  - rewrite DiagCups.cups_eq in H0. inversion H0; subst. now rewrite (F_cups ca H), DiagCups.cups_eq.
  - rewrite DiagCups.caps_eq in H0. inversion H0; subst. now rewrite (F_caps ca H), DiagCups.caps_eq.
  - destruct (F_swap_any ca H l r) as (d & -> & ->). reflexivity.
  - destruct (F_spider_any ca H t n m) as (d & -> & ->). reflexivity.
Qed.
Print Assumptions C14_functor_structure.

(** The image of a diagram of swaps (of a swap of compound types, of a permutation) moves the blocks
    of image wires exactly as the diagram moves its wires. *)
Theorem C14_functor_wiring : forall custom_ob custom_ar ob X d (vs : list (list X)),
  (forall n, custom_ob n = Ok (ob n)) ->
  wf d -> All (fun x => is_swap (l_box x)) (layers d) ->
  Forall2 (fun a v => List.length v = List.length (Fa ob a)) (dom d) vs ->
  exists e ws, F_diag custom_ob custom_ar d = Ok e /\ run d vs = Some ws /\
               run e (List.concat vs) = Some (List.concat ws).
Proof. intros. now apply (@F_swaps custom_ob custom_ar ob). Qed.
Print Assumptions C14_functor_wiring.

(** Daggers are preserved: for diagrams without frames whose structural boxes have atomic images. *)
Theorem C14_functor_dagger_partial : forall custom_ob custom_ar ob d,
  (forall n, custom_ob n = Ok (ob n)) ->
  wf d ->
  All (fun x => simple ob (l_box x) /\ All (respects ob custom_ar) (basics (l_box x)) /\
                All (image_all custom_ar dag_normal) (basics (l_box x))) (layers d) ->
  exists e, F_diag custom_ob custom_ar d = Ok e /\ F_diag custom_ob custom_ar (d_dagger d) = Ok (d_dagger e).
Proof. intros. now apply (@F_dagger custom_ob custom_ar ob). Qed.
Print Assumptions C14_functor_dagger_partial.

(** Adjoints (rotations by any z) are preserved, under the same restriction. *)
Theorem C14_functor_rotate_partial : forall custom_ob custom_ar ob z d,
  (forall n, custom_ob n = Ok (ob n)) ->
  wf d ->
  All (fun x => simple ob (l_box x) /\ All (respects ob custom_ar) (basics (l_box x)) /\
                All (image_all custom_ar small_frames) (basics (l_box x))) (layers d) ->
  exists e, F_diag custom_ob custom_ar d = Ok e /\ F_diag custom_ob custom_ar (d_rotate z d) = Ok (d_rotate z e).
Proof. intros. now apply (@F_rotate custom_ob custom_ar ob). Qed.
Print Assumptions C14_functor_rotate_partial.

(** a concrete functor and diagram meeting the hypotheses above: "sees" : n.r s n.l with a daggered box *)
Definition ex_ar (b : box) : res diagram :=
  match b with
  | Word n c _ => Ok (to_diag (Word (n ++ "!") c 0))
  | Box n d c _ => Ok (to_diag (Box (n ++ "!") d c 0))
  | _ => Err KeyError
  end.
Definition ex_diag : diagram :=
  Diag [] [("s", 0%Z)]
    [([], Word "A" [("n", 0%Z)] 0, []);
     ([("n", 0%Z)], Dagg (Box "f" [("n", 1%Z); ("s", 0%Z)] [] 1), []);
     ([], Cup ("n", 0%Z) ("n", 1%Z) false, [("s", 0%Z)])].
Example C14_nonvacuous : wf ex_diag /\
  All (fun x => simple (fun n => [(n, 0%Z)]) (l_box x) /\
                All (respects (fun n => [(n, 0%Z)]) ex_ar) (basics (l_box x)) /\
                All (image_all ex_ar dag_normal) (basics (l_box x)) /\
                All (image_all ex_ar small_frames) (basics (l_box x))) (layers ex_diag) /\
  F_diag (fun n => Ok [(n, 0%Z)]) ex_ar ex_diag =
    Ok (Diag [] [("s", 0%Z)]
      [([], Word "A!" [("n", 0%Z)] 0, []);
       ([("n", 0%Z)], Dagg (Box "f!" [("n", 1%Z); ("s", 0%Z)] [] 1), []);
       ([], Cup ("n", 0%Z) ("n", 1%Z) false, [("s", 0%Z)])]).
Proof.
  split; [now vm_compute|]. split; [|now vm_compute].
  repeat split; try (intros d [= <-]; now vm_compute); eexists; split; try reflexivity; now vm_compute.
Qed.

(** ** C15 *)

(** After any history of calls that all returned normally, a call on any type, box or diagram gives
    exactly what it gives on a fresh functor (value or exception).  If the object map never raises, the
    history may also contain calls that raised anything but TypeError. *)
Theorem C15_cache_transparent_partial : forall custom_ob custom_ar h e,
  Forall (fun r => match r with
                   | Ok _ => True
                   | Err x => (forall n, exists t, custom_ob n = Ok t) /\ x <> TypeError
                   end) (fst (calls custom_ob custom_ar h empty_caches)) ->
  fst (call custom_ob custom_ar e (snd (calls custom_ob custom_ar h empty_caches)))
  = fst (call custom_ob custom_ar e empty_caches).
Proof. intros. now apply history_independent. Qed.
Print Assumptions C15_cache_transparent_partial.

(** The value on a fresh functor is the cache-free image. *)
Theorem C15_fresh_is_uncached : forall custom_ob custom_ar,
  (forall t, fst (call custom_ob custom_ar (ETy t) empty_caches) = rmap ITy (F_ty custom_ob t)) /\
  (forall b, fst (call custom_ob custom_ar (EArrow (AB b)) empty_caches) = rmap IDiag (F_box custom_ob custom_ar b)) /\
  (forall d, fst (call custom_ob custom_ar (EArrow (AD d)) empty_caches) = rmap IDiag (F_diag custom_ob custom_ar d)).
Proof. intros. repeat split; intros; now rewrite fresh_call. Qed.
Print Assumptions C15_fresh_is_uncached.

(** After a TypeError the ill-typed image is served from the cache: the second call on the same box
    returns it silently.  The same happens when the object map raises during the check. *)
Theorem C15_poisoned_cache_refuted :
  (exists custom_ob custom_ar b d,
     (forall n, exists t, custom_ob n = Ok t) /\
     fst (calls custom_ob custom_ar [EArrow (AB b); EArrow (AB b)] empty_caches) = [Err TypeError; Ok (IDiag d)] /\
     F_ty custom_ob (b_cod b) <> Ok (cod d)) /\
  (exists custom_ob custom_ar b d,
     fst (calls custom_ob custom_ar [EArrow (AB b); EArrow (AB b)] empty_caches) = [Err KeyError; Ok (IDiag d)]).
Proof.
  split.
  - exists (fun n => Ok [(n, 0%Z)]), (fun _ => Ok (to_diag (Word "w" [("s", 0%Z)] 0))), (Word "w" [("n", 0%Z)] 0),
      (to_diag (Word "w" [("s", 0%Z)] 0)).
    repeat split; [eauto|now vm_compute].
  - exists (fun _ => Err KeyError), (fun b => Ok (to_diag b)), (Word "w" [("n", 0%Z)] 0), (to_diag (Word "w" [("n", 0%Z)] 0)).
    now vm_compute.
Qed.
Print Assumptions C15_poisoned_cache_refuted.

Example C15_nonvacuous :
  Forall (fun r : res image => match r with Ok _ => True | Err x => (forall n : string, exists t, Ok [(n, 0%Z)] = Ok t :> res ty) /\ x <> TypeError end)
    (fst (calls (fun n => Ok [(n, 0%Z)]) ex_ar [EArrow (AD ex_diag); EArrow (AB (Frame "f" [] [] [] 0)); EArrow (AD ex_diag)] empty_caches))
  /\ List.length (ar_cache (snd (calls (fun n => Ok [(n, 0%Z)]) ex_ar [EArrow (AD ex_diag)] empty_caches))) = 9.
Proof. split; [|now vm_compute]. repeat constructor; try (intros; eexists; reflexivity); discriminate. Qed.

(** ** C16 *)

Theorem C16_json_types : forall t top, rty_valid t = true ->
  rty_from_json (rty_to_json top t) = Ok t /\ category_from_json (rty_to_json top t) = Ok (JTy t).
Proof. intros. split; [now apply rty_from_json_round|now apply category_round_ty]. Qed.
Print Assumptions C16_json_types.

(** Boxes, layers and diagrams round trip, at top level and nested, through the class's own decoder and
    through the category's dispatching decoder -- provided every [Daggered] wraps a plain box and every
    frame component is a diagram, cap, cup, swap, spider or frame. *)
Theorem C16_json_boxes_partial : forall b top, json_ok b -> box_ok b ->
  box_from_json (class_of b) (box_to_json top b) = Ok b /\ category_from_json (box_to_json top b) = Ok (JBoxE b).
Proof. intros. split; [now apply box_from_json_round|now apply category_round_box]. Qed.
Print Assumptions C16_json_boxes_partial.

Theorem C16_json_layers_partial : forall x top, json_ok (l_box x) -> box_ok (l_box x) ->
  layer_from_json (layer_to_json top x) = Ok x /\ category_from_json (layer_to_json top x) = Ok (JLayer x).
Proof. intros. split; [now apply layer_from_json_round|now apply category_round_layer]. Qed.
Print Assumptions C16_json_layers_partial.

Theorem C16_json_diagrams_partial : forall d top, All (fun x => json_ok (l_box x) /\ box_ok (l_box x)) (layers d) ->
  diag_from_json (diag_to_json top d) = Ok d /\ category_from_json (diag_to_json top d) = Ok (JDiag d).
Proof. intros. split; [now apply diag_from_json_round|now apply category_round_diag]. Qed.
Print Assumptions C16_json_diagrams_partial.

Example C16_nonvacuous :
  let d := Diag [] [("n", 0%Z)] [([], Frame "f" [] [("n", 0%Z)]
             [CDiag [] [("n", 0%Z); ("s", (-1)%Z)] [([], Word "A" [("n", 0%Z); ("s", (-1)%Z)] 0, [])];
              CBox (Cap ("n", 1%Z) ("n", 0%Z) false)] 0, []);
             ([("n", 0%Z)], Dagg (Box "g" [("n", 0%Z)] [] 1), [])] in
  All (fun x => json_ok (l_box x) /\ box_ok (l_box x)) (layers d).
Proof. vm_compute. tauto. Qed.

(** What the restriction excludes: the dagger of a word, and frames with a box, word, daggered box or
    daggered frame as a direct component, cannot be decoded. *)
Theorem C16_json_refuted :
  (forall n c z top, box_from_json KDaggered (box_to_json top (Dagg (Word n c z))) = Err KeyError) /\
  (exists b, box_ok b /\ box_from_json KFrame (box_to_json true b) = Err KeyError /\
     b = Frame "f" [] [] [CBox (Box "g" [] [] 0)] 0) /\
  (exists b, box_ok b /\ box_from_json KFrame (box_to_json true b) = Err KeyError /\
     b = Frame "f" [] [] [CBox (DagFrame "g" [] [] [] 0)] 0).
Proof.
  split; [exact daggered_word_keyerror|]. split; eexists; (split; [|split; [|reflexivity]]); now vm_compute.
Qed.
Print Assumptions C16_json_refuted.
