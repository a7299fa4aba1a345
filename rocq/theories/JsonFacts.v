(** JSON round trips (proofs only). *)
From Verif Require Import PyBase PyFacts TyModel TyFacts DiagModel DiagSpec DiagFacts DiagCups JsonModel JsonSpec.
Set Implicit Arguments. Unset Strict Implicit.

Lemma sum_in A (f : A -> nat) l x : In x l -> f x <= list_sum (map f l).
Proof. unfold list_sum. induction l as [|y l IH]; cbn; [tauto|]. intros [->|H]; [lia|]. specialize (IH H). lia. Qed.
Lemma jsize_field k v l : In (k, v) l -> jsize v < jsize (JObj l).
Proof. intro H. cbn [jsize]. pose proof (sum_in (fun x => jsize (snd x)) H) as G. cbn in G |- *. lia. Qed.
Lemma jsize_elem x l : In x l -> jsize x < jsize (JList l).
Proof. intro H. cbn [jsize]. pose proof (sum_in jsize H) as G. lia. Qed.

Lemma mapM_round A B (enc : A -> B) (dec : B -> res A) l :
  (forall x, In x l -> dec (enc x) = Ok x) -> mapM dec (map enc l) = Ok l.
Proof.
  induction l as [|x l IH]; cbn; auto. intro H. rewrite (H x) by auto. cbn. rewrite IH; auto.
Qed.

Lemma rty_round t : rty_valid t = true -> forall top f, jsize (rty_to_json top t) <= f ->
  rty_from f (rty_to_json top t) = Ok t.
Proof.
  induction t as [n objs z IH] using rty_ind'. cbn [rty_valid]. rewrite andb_true_iff. intros [H1 H2] top f Hf.
  destruct f as [|f]; [cbn in Hf; lia|].
  assert (S1 : mapM (rty_from f) (map (rty_to_json false) objs) = Ok objs).
  { apply mapM_round. intros x Hx. rewrite Forall_forall in IH. apply IH; auto.
    - rewrite forallb_forall in H2. auto.
    - pose proof (jsize_elem (in_map (rty_to_json false) _ _ Hx)) as G.
      assert (G2 : jsize (JList (map (rty_to_json false) objs)) < jsize (rty_to_json top (RTy n objs z))).
      { apply (@jsize_field "objects"). cbn. auto. }
      lia. }
  assert (E : mk_ty n objs z = Ok (RTy n objs z)) by (unfold mk_ty; now rewrite H1).
  destruct top; cbn [rty_from rty_to_json meta app]; unfold open_obj; cbn -[rty_from mk_ty mapM];
    rewrite S1; destruct n; cbn -[mk_ty]; exact E.
Qed.
Lemma of_ty_valid t : rty_valid (of_ty t) = true.
Proof.
  pose proof (of_ty_flat t) as H. destruct (of_ty t) as [n objs z]. unfold flat in H. cbn in *.
  rewrite andb_true_iff in *. destruct H as [H1 H2]. split; auto. rewrite forallb_forall in *.
  intros x Hx. specialize (H2 x Hx). destruct (atomic_inv _ H2) as (m & k & ->). reflexivity.
Qed.
Lemma ty_round top t : ty_from_json (ty_to_json top t) = Ok t.
Proof.
  unfold ty_from_json, ty_to_json, rty_from_json. rewrite rty_round; auto using of_ty_valid. cbn. now rewrite factors_of_ty.
Qed.

Definition entity_of (b : box) : string :=
  match b with
  | Box _ _ _ _ => "Box" | Word _ _ _ => "Word" | Cap _ _ _ => "Cap" | Cup _ _ _ => "Cup"
  | Swap _ _ => "Swap" | Spider _ _ _ => "Spider" | Dagg _ => "Daggered"
  | Frame _ _ _ _ _ => "Frame" | DagFrame _ _ _ _ _ => "DaggeredFrame"
  end%string.
Lemma box_json_shape top b : exists d, box_to_json top b = JObj d /\ jget "entity" d = Ok (JStr (entity_of b)).
Proof. destruct b; cbn; eexists; split; reflexivity. Qed.
Lemma layer_entity_of b : layer_entity (entity_of b) = Ok (class_of b).
Proof. now destruct b. Qed.

Lemma layer_round rec top l b r : rec (class_of b) (box_to_json false b) = Ok b ->
  layer_from rec (layer_to_json_with (box_to_json false) top (l, b, r)) = Ok (l, b, r).
Proof.
  intro H. unfold layer_from, layer_to_json_with.
  destruct (box_json_shape false b) as (d & E1 & E2).
  destruct top; unfold open_obj, ty_field; cbn -[ty_to_json ty_from_json box_to_json layer_entity];
    rewrite !ty_round; cbn -[ty_to_json ty_from_json box_to_json layer_entity];
    rewrite E1; cbn -[ty_to_json ty_from_json box_to_json layer_entity]; rewrite E2;
    cbn -[ty_to_json ty_from_json box_to_json layer_entity]; rewrite layer_entity_of;
    cbn -[ty_to_json ty_from_json box_to_json layer_entity]; rewrite <- E1, H;
    cbn -[ty_to_json ty_from_json box_to_json layer_entity]; reflexivity.
Qed.
Lemma diag_round rec top d c ls :
  (forall x, In x ls -> rec (class_of (l_box x)) (box_to_json false (l_box x)) = Ok (l_box x)) ->
  diag_from rec (diag_to_json_with (box_to_json false) top d c ls) = Ok (Diag d c ls).
Proof.
  intro H. assert (S1 : mapM (layer_from rec) (map (layer_to_json_with (box_to_json false) false) ls) = Ok ls).
  { apply mapM_round. intros [[l b] r] Hx. apply layer_round. apply (H _ Hx). }
  unfold diag_from, diag_to_json_with.
  destruct top; unfold open_obj, ty_field; cbn -[ty_to_json ty_from_json layer_from mapM layer_to_json_with];
    rewrite !ty_round; cbn -[ty_to_json ty_from_json layer_from mapM layer_to_json_with];
    rewrite ?ty_round; cbn -[ty_to_json ty_from_json layer_from mapM layer_to_json_with];
    rewrite S1; reflexivity.
Qed.

Lemma jsize_layer_box top l b r : jsize (box_to_json false b) < jsize (layer_to_json_with (box_to_json false) top (l, b, r)).
Proof. apply (@jsize_field "box"). cbn. auto. Qed.
Lemma jsize_diag_box top d c ls x : In x ls ->
  jsize (box_to_json false (l_box x)) < jsize (diag_to_json_with (box_to_json false) top d c ls).
Proof.
  intro H. pose proof (jsize_elem (in_map (layer_to_json_with (box_to_json false) false) _ _ H)) as G.
  assert (G2 : jsize (JList (map (layer_to_json_with (box_to_json false) false) ls)) < jsize (diag_to_json_with (box_to_json false) top d c ls)).
  { apply (@jsize_field "layers"). cbn. auto. }
  destruct x as [[l b] r]. pose proof (jsize_layer_box false l b r). cbn [l_box]. lia.
Qed.

Definition Rt (b : box) : Prop := json_ok b -> box_ok b -> forall top f, jsize (box_to_json top b) <= f ->
  box_from f (class_of b) (box_to_json top b) = Ok b.
Lemma comp_round f k : AllC Rt k -> comp_json json_ok k -> comp_ok box_ok k ->
  jsize (comp_to_json_with (box_to_json false) k) <= f ->
  comp_from (box_from f) (comp_to_json_with (box_to_json false) k) = Ok k.
Proof.
  destruct k as [b|d c ls]; cbn [AllC comp_json comp_ok comp_to_json_with]; intros HR HJ HO Hf.
  - destruct (box_json_shape false b) as (d & E1 & E2). unfold comp_from.
    rewrite E1. cbn -[box_from special_entity]. rewrite E2. cbn -[box_from special_entity]. rewrite <- E1.
    destruct b; try tauto; cbn [entity_of]; cbn -[box_from box_to_json];
      match goal with |- context [box_from f ?K (box_to_json false ?b)] =>
        change K with (class_of b); rewrite (HR HJ HO false f Hf) end; reflexivity.
  - unfold comp_from. destruct HO as [_ HO].
    unfold diag_to_json_with at 1. cbn -[diag_from diag_to_json_with].
    rewrite diag_round; [reflexivity|]. intros x Hx.
    apply (jsize_diag_box false d c) in Hx as Hs.
    rewrite All_In in HR, HJ, HO. specialize (HR x Hx). specialize (HJ x Hx). specialize (HO x Hx).
    destruct x as [[l b] r]. cbn [l_box] in *. apply HR; auto. lia.
Qed.
Lemma comps_round f cs : All (AllC Rt) cs -> All (comp_json json_ok) cs -> All (comp_ok box_ok) cs ->
  jsize (JList (map (comp_to_json_with (box_to_json false)) cs)) <= f ->
  mapM (comp_from (box_from f)) (map (comp_to_json_with (box_to_json false)) cs) = Ok cs.
Proof.
  intros H1 H2 H3 Hf. apply mapM_round. intros k Hk. rewrite All_In in H1, H2, H3.
  apply comp_round; auto. pose proof (jsize_elem (in_map (comp_to_json_with (box_to_json false)) _ _ Hk)). lia.
Qed.

Lemma frame_round n d c cs z : All (AllC Rt) cs -> Rt (Frame n d c cs z).
Proof.
  intros H HJ HO top f Hf. cbn [json_ok box_ok] in HJ, HO. destruct f as [|f]; [pose proof (jsize_field (k := "z"%string) (v := JNum z)); cbn in Hf; lia|].
  assert (S1 : mapM (comp_from (box_from f)) (map (comp_to_json_with (box_to_json false)) cs) = Ok cs).
  { apply comps_round; auto.
    assert (G : jsize (JList (map (comp_to_json_with (box_to_json false)) cs)) < jsize (box_to_json top (Frame n d c cs z))).
    { apply (@jsize_field "components"). cbn. auto 10. }
    lia. }
  cbn [class_of box_from box_to_json]. destruct top; unfold open_obj, ty_field;
    cbn -[ty_to_json ty_from_json comp_from box_from mapM box_to_json comp_to_json_with];
    rewrite !ty_round; cbn -[ty_to_json ty_from_json comp_from box_from mapM box_to_json comp_to_json_with];
    rewrite ?ty_round; cbn -[ty_to_json ty_from_json comp_from box_from mapM box_to_json comp_to_json_with];
    rewrite S1; reflexivity.
Qed.

Lemma box_round b : Rt b.
Proof.
  induction b using box_ind'; try (now apply frame_round); intros HJ HO top f Hf;
    (destruct f as [|f]; [destruct top; cbn in Hf; lia|]).
  all: try (cbn [class_of box_from box_to_json]; destruct top; unfold open_obj, ty_field;
    cbn -[ty_to_json ty_from_json]; rewrite !ty_round; cbn -[ty_to_json ty_from_json]; rewrite ?ty_round; reflexivity).
  - cbn [class_of box_from box_to_json]; destruct top; unfold open_obj, ty_field;
    cbn -[ty_to_json ty_from_json]; rewrite !ty_round; cbn -[ty_to_json ty_from_json]; rewrite ?ty_round;
    cbn -[ty_to_json ty_from_json mk_cap]; cbn in HO; unfold mk_cap, cap_adjoint; subst;
    destruct v; rewrite rot_single, ty_eqb_refl; reflexivity.
  - cbn [class_of box_from box_to_json]; destruct top; unfold open_obj, ty_field;
    cbn -[ty_to_json ty_from_json]; rewrite !ty_round; cbn -[ty_to_json ty_from_json]; rewrite ?ty_round;
    cbn -[ty_to_json ty_from_json mk_cup]; cbn in HO; unfold mk_cup, cup_adjoint; subst;
    destruct v; rewrite rot_single, ty_eqb_refl; reflexivity.
  - cbn [class_of box_from box_to_json]; destruct top; unfold open_obj, ty_field;
    cbn -[ty_to_json ty_from_json]; rewrite !ty_round; cbn -[ty_to_json ty_from_json]; rewrite ?ty_round;
    cbn -[ty_to_json ty_from_json]; rewrite !Nat2Z.id; reflexivity.
  - cbn [json_ok] in HJ. destruct b; try tauto.
    assert (G : jsize (box_to_json false (Box name bdom bcod z)) < jsize (box_to_json top (Dagg (Box name bdom bcod z)))).
    { apply (@jsize_field "box"). cbn. auto. }
    specialize (IHb I HO false f ltac:(lia)). cbn [class_of] in IHb.
    cbn [class_of box_from]. destruct top; cbn [box_to_json]; unfold open_obj;
    cbn -[box_from box_to_json ty_to_json]; cbn -[box_from ty_to_json] in IHb; rewrite IHb; reflexivity.
  - pose proof (frame_round (n := n) (d := d) (c := c) (z := z) H) as HF.
    specialize (HF HJ HO false f).
    assert (G : jsize (box_to_json false (Frame n d c cs z)) < jsize (box_to_json top (DagFrame n d c cs z))).
    { apply (@jsize_field "frame"). cbn. auto. }
    specialize (HF ltac:(lia)). cbn [class_of] in HF.
    cbn [class_of box_from]. destruct top; cbn [box_to_json]; unfold open_obj;
    cbn -[box_from ty_to_json comp_to_json_with]; cbn -[box_from ty_to_json comp_to_json_with] in HF; rewrite HF; reflexivity.
Qed.

Lemma rty_from_json_round t top : rty_valid t = true -> rty_from_json (rty_to_json top t) = Ok t.
Proof. intro H. now apply rty_round. Qed.
Lemma box_from_json_round b top : json_ok b -> box_ok b -> box_from_json (class_of b) (box_to_json top b) = Ok b.
Proof. intros. now apply box_round. Qed.
Lemma layer_from_json_round x top : json_ok (l_box x) -> box_ok (l_box x) -> layer_from_json (layer_to_json top x) = Ok x.
Proof.
  intros HJ HO. destruct x as [[l b] r]. apply layer_round. apply box_round; auto.
  pose proof (jsize_layer_box top l b r). unfold layer_to_json. lia.
Qed.
Lemma diag_from_json_round d top : All (fun x => json_ok (l_box x) /\ box_ok (l_box x)) (layers d) ->
  diag_from_json (diag_to_json top d) = Ok d.
Proof.
  intro H. unfold diag_from_json, diag_to_json. rewrite diag_round; [now destruct d|].
  intros x Hx. rewrite All_In in H. destruct (H x Hx). apply box_round; auto.
  pose proof (jsize_diag_box top (dom d) (cod d) Hx). lia.
Qed.
Lemma category_round_ty t top : rty_valid t = true -> category_from_json (rty_to_json top t) = Ok (JTy t).
Proof.
  intro H. unfold category_from_json. pose proof (rty_from_json_round top H) as R.
  destruct t as [n o z]. cbn -[rty_from_json]. cbn -[rty_from_json] in R. now rewrite R.
Qed.
Lemma category_round_box b top : json_ok b -> box_ok b -> category_from_json (box_to_json top b) = Ok (JBoxE b).
Proof.
  intros HJ HO. unfold category_from_json. destruct (box_json_shape top b) as (d & E1 & E2).
  rewrite E1. cbn -[box_from_json layer_entity rty_from_json layer_from_json diag_from_json]. rewrite E2.
  cbn -[box_from_json layer_entity rty_from_json layer_from_json diag_from_json]. rewrite <- E1.
  replace (entity_of b =? "Ty")%string with false by now destruct b.
  replace (entity_of b =? "Layer")%string with false by now destruct b.
  replace (entity_of b =? "Diagram")%string with false by now destruct b.
  rewrite layer_entity_of. cbn -[box_from_json]. now rewrite box_from_json_round.
Qed.
Lemma category_round_layer x top : json_ok (l_box x) -> box_ok (l_box x) ->
  category_from_json (layer_to_json top x) = Ok (JLayer x).
Proof.
  intros HJ HO. pose proof (layer_from_json_round top HJ HO) as R.
  destruct x as [[l b] r]. unfold category_from_json, layer_to_json, layer_to_json_with in *.
  cbn -[layer_from_json box_to_json] in *. now rewrite R.
Qed.
Lemma category_round_diag d top : All (fun x => json_ok (l_box x) /\ box_ok (l_box x)) (layers d) ->
  category_from_json (diag_to_json top d) = Ok (JDiag d).
Proof.
  intros H. pose proof (diag_from_json_round top H) as R.
  unfold category_from_json, diag_to_json, diag_to_json_with in *. cbn -[diag_from_json layer_to_json_with] in *. now rewrite R.
Qed.
(** what the decoders do on the cases they miss *)
Lemma daggered_word_keyerror n c z top : box_from_json KDaggered (box_to_json top (Dagg (Word n c z))) = Err KeyError.
Proof.
  unfold box_from_json. cbn [box_to_json].
  assert (G : forall m j, jsize j <= m -> forall f, 2 <= f -> True) by auto.
  match goal with |- box_from ?N _ _ = _ => assert (HN : exists k, N = S (S k)) end.
  { assert (1 < jsize (JObj ([("entity", JStr "Daggered"); ("box", box_to_json false (Word n c z))] ++ meta top)))%string.
    { eapply Nat.le_lt_trans; [|apply (@jsize_field "box")]; [|cbn; auto]. cbn. lia. }
    cbn [box_to_json] in *. destruct (jsize _) as [|[|k]]; try lia. eauto. }
  destruct HN as [k ->]. destruct top; reflexivity.
Qed.
