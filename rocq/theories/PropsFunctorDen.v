(** Property theorems C99: the image of a diagram under a functor means what the diagram means. *)
From Verif Require Import PyBase TyModel DiagModel DiagSpec FunctorModel FunctorSpec FunctorFacts Cat CatRel SnakeModel SnakeSpec FunctorDenSpec FunctorDen FunctorNf.
Local Open Scope string_scope.

(** Interpret every atomic type by the object of its image and every box of [d] by the morphism of its
    image: then [d] denotes what its image denotes. *)
Theorem C99_denotation : forall custom_ob custom_ar ob (C : smc) (I J : interp C) d e,
  (forall n, custom_ob n = Ok (ob n)) -> wf d ->
  through_types ob I J -> All (fun x => through_box custom_ob custom_ar I J (l_box x)) (layers d) ->
  F_diag custom_ob custom_ar d = Ok e -> wf e /\ heq C (den I e) (den J d).
Proof. intros co ca ob C I J d e H W HT HB E. exact (den_image H HT W HB E). Qed.
Print Assumptions C99_denotation.

(** Such an interpretation exists for every diagram the functor accepts, and cups and caps straighten
    in it if they do in the target. *)
Theorem C99_interpretation : forall custom_ob custom_ar ob (C : smc) (I : interp C) d e,
  (forall n, custom_ob n = Ok (ob n)) -> wf d -> respected ob custom_ar d -> F_diag custom_ob custom_ar d = Ok e ->
  exists J, through_types ob I J /\ All (fun x => through_box custom_ob custom_ar I J (l_box x)) (layers d) /\
    (rigid I -> rigid J) /\ heq C (den I e) (den J d).
Proof. intros co ca ob C I d e H W R E. exact (interpretation H I W R E). Qed.
Print Assumptions C99_interpretation.

(** So diagrams that mean the same have images that mean the same. *)
Theorem C99_equal_meaning : forall custom_ob custom_ar ob d d' e e',
  (forall n, custom_ob n = Ok (ob n)) -> wf d -> wf d' -> respected ob custom_ar d -> respected ob custom_ar d' ->
  F_diag custom_ob custom_ar d = Ok e -> F_diag custom_ob custom_ar d' = Ok e' ->
  (same d d' -> same e e') /\ (same_rigid d d' -> same_rigid e e').
Proof. intros co ca ob d d' e e' H W W' R R' E E'. exact (equal_meaning H W W' R R' E E'). Qed.
Print Assumptions C99_equal_meaning.

(** Rewriting a diagram before applying the functor changes nothing in the meaning of the result, and
    the functor still accepts the diagram: interchanging boxes, *)
Theorem C99_interchange : forall custom_ob custom_ar ob d d' e i j left,
  (forall n, custom_ob n = Ok (ob n)) -> wf d -> respected ob custom_ar d -> F_diag custom_ob custom_ar d = Ok e ->
  interchange d i j left = Ok d' -> exists e', F_diag custom_ob custom_ar d' = Ok e' /\ same e e'.
Proof. intros co ca ob d d' e i j left H W R E X. exact (after_interchange H W R E X). Qed.
Print Assumptions C99_interchange.

(** removing snakes, normal forms, and pregroup normal forms. *)
Theorem C99_normal_forms : forall custom_ob custom_ar ob d d' e fuel left,
  (forall n, custom_ob n = Ok (ob n)) -> wf d -> no_mixed (boxes d) -> respected ob custom_ar d -> F_diag custom_ob custom_ar d = Ok e ->
  remove_snakes fuel d = Some (Ok d') \/ normal_form fuel left d = Some (Ok d') \/
    (dom d = [] /\ pregroup_normal_form fuel d = Some (Ok d')) ->
  exists e', F_diag custom_ob custom_ar d' = Ok e' /\ same_rigid e e'.
Proof.
  intros co ca ob d d' e f left H W N R E [X|[X|[D X]]]; apply (after H W R E);
    [exact (remove_snakes_boxes W N X)|exact (normal_form_boxes W N X)|exact (pregroup_normal_form_boxes W N D X)].
Qed.
Print Assumptions C99_normal_forms.

(** A functor doubling nouns, a sentence with a word type-raised and bent back, its normal form, and
    both images, which differ as diagrams; the relational interpretation is rigid. *)
Definition dbl (n : string) : ty := if (n =? "n")%string then [("n", 0%Z); ("m", 0%Z)] else [(n, 0%Z)].
Definition dbl_ar (b : box) : res diagram := Ok (to_diag (Box (b_name b ++ "!") (Fo dbl (b_dom b)) (Fo dbl (b_cod b)) 0)).
Definition bent : diagram :=
  Diag [] [("s", 0%Z)]
    [([], Word "A" [("n", 0%Z)] 0, []); ([("n", 0%Z)], Cap ("n", 1%Z) ("n", 0%Z) false, []);
     ([], Cup ("n", 0%Z) ("n", 1%Z) false, [("n", 0%Z)]); ([], Box "f" [("n", 0%Z)] [("s", 0%Z)] 0, [])].
Example C99_nonvacuous : wf bent /\ no_mixed (boxes bent) /\ respected dbl dbl_ar bent /\ rigid (@rel_interp nat (fun _ _ _ => True)) /\
  exists e d' e', F_diag (fun n => Ok (dbl n)) dbl_ar bent = Ok e /\ normal_form 9 false bent = Some (Ok d') /\
    F_diag (fun n => Ok (dbl n)) dbl_ar d' = Ok e' /\ List.length (layers e) = 6 /\ List.length (layers e') = 2.
Proof.
  split; [now vm_compute|]. split.
  { intros l r v l' r' v' H1 H2. cbn in H1, H2. repeat (destruct H1 as [H1|H1]; try discriminate); try tauto.
    repeat (destruct H2 as [H2|H2]; try discriminate); try tauto. congruence. }
  split. { repeat split; eexists; (split; [reflexivity|]); now vm_compute. }
  split; [apply rel_rigid|].
  do 3 eexists. split; [vm_compute; reflexivity|]. split; [vm_compute; reflexivity|]. split; [vm_compute; reflexivity|]. split; reflexivity.
Qed.
