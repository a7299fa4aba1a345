(** Typing and structure preservation of functors (proofs only). *)
From Verif Require Import PyBase PyFacts TyModel TyFacts DiagModel DiagSpec DiagFacts DiagRot DiagPerm DiagCups DiagMisc BoxEq FunctorModel FunctorSpec FunctorCache.
Set Implicit Arguments. Unset Strict Implicit.

Lemma bind_ok_inv A B (x : res A) (f : A -> res B) b : bind x f = Ok b -> exists a, x = Ok a /\ f a = Ok b.
Proof. destruct x; cbn; eauto; congruence. Qed.
Lemma bind_assoc A B C (x : res A) (f : A -> res B) (g : B -> res C) :
  bind (bind x f) g = bind x (fun a => bind (f a) g).
Proof. now destruct x. Qed.
Lemma bind_rmap A B C (x : res A) (f : A -> B) (g : B -> res C) : bind (rmap f x) g = bind x (fun a => g (f a)).
Proof. now destruct x. Qed.

Section Facts.
  Variable custom_ob : string -> res ty.
  Variable custom_ar : box -> res diagram.
  Variable ob : string -> ty.
  Hypothesis Hob : forall n, custom_ob n = Ok (ob n).
  Notation F_ty := (F_ty custom_ob).
  Notation F_box := (F_box custom_ob custom_ar).
  Notation F_diag := (F_diag custom_ob custom_ar).
  Notation F_check := (f_check custom_ob).
  Notation Fa := (Fa ob).
  Notation Fo := (Fo ob).
  Notation respects := (respects ob custom_ar).
  Notation rev_ok := (rev_ok ob).
  Notation atomic_image := (atomic_image ob).
  Notation simple := (simple ob).
  Notation image_all := (image_all custom_ar).

  Arguments FunctorSpec.Fo : simpl never.
  Lemma Fo_cons a t : Fo (a :: t) = Fa a ++ Fo t.
  Proof. reflexivity. Qed.

  Lemma F_atom_eq a : F_atom custom_ob a = Ok (Fa a).
  Proof.
    unfold F_atom, FunctorSpec.Fa. destruct a as [n z]. cbn. rewrite Hob. destruct (Z.eqb_spec z 0) as [->|]; auto.
    now rewrite rot_0.
  Qed.
  Lemma F_ty_eq t : F_ty t = Ok (Fo t).
  Proof.
    unfold FunctorModel.F_ty, FunctorSpec.Fo. enough (mapM (F_atom custom_ob) t = Ok (map Fa t)) as ->.
    { cbn. now rewrite flat_map_concat_map. }
    induction t; cbn; auto. now rewrite F_atom_eq, IHt.
  Qed.
  Lemma Fo_app s t : Fo (s ++ t) = Fo s ++ Fo t.
  Proof. apply flat_map_app. Qed.
  Lemma Fo_single a : Fo [a] = Fa a.
  Proof. unfold FunctorSpec.Fo. cbn. apply app_nil_r. Qed.
  Lemma Fa_rot z a : Fa (rot_atom z a) = rot z (Fa a).
  Proof. unfold FunctorSpec.Fa, rot_atom. cbn. rewrite rot_add. f_equal. lia. Qed.
  Lemma Fo_rot z t : Fo (rot z t) = rot z (Fo t).
  Proof.
    induction t as [|a t IH]; [unfold FunctorSpec.Fo; cbn; now rewrite !rot_nil|].
    change (a :: t) with ([a] ++ t). rewrite rot_app, Fo_app, rot_app, rot_single.
    destruct (Z.odd z); rewrite Fo_app, IH, !Fo_single, Fa_rot; reflexivity.
  Qed.
  Lemma Fo_pow a n : Fo (repeat a n) = ty_pow (Fa a) n.
  Proof. induction n; cbn; auto. now rewrite Fo_cons, IHn. Qed.
  Lemma Fo_pow_ty t n : Fo (ty_pow t n) = ty_pow (Fo t) n.
  Proof. induction n; cbn; auto. now rewrite Fo_app, IHn. Qed.

  Lemma F_check_eq d c r : F_check d c r =
    (do ret <- r; if negb (ty_eqb (cod ret) (Fo c)) || negb (ty_eqb (dom ret) (Fo d)) then Err TypeError else Ok ret).
  Proof. unfold f_check. destruct r; cbn; auto. now rewrite !F_ty_eq. Qed.
  Lemma F_check_ok d c ret : dom ret = Fo d -> cod ret = Fo c -> F_check d c (Ok ret) = Ok ret.
  Proof. intros E1 E2. rewrite F_check_eq. cbn. now rewrite E1, E2, !ty_eqb_refl. Qed.
  Lemma F_check_inv d c r ret : F_check d c r = Ok ret -> r = Ok ret /\ dom ret = Fo d /\ cod ret = Fo c.
  Proof.
    rewrite F_check_eq. destruct r as [x|]; cbn; [|congruence].
    destruct (ty_eqb_spec (cod x) (Fo c)), (ty_eqb_spec (dom x) (Fo d)); cbn; try congruence.
    intros [= <-]. auto.
  Qed.
  Lemma F_box_ends b x : F_box b = Ok x -> dom x = Fo (b_dom b) /\ cod x = Fo (b_cod b).
  Proof. destruct b; cbn [FunctorModel.F_box]; intro H; apply F_check_inv in H; tauto. Qed.

  (** ** diagrams as concatenations of layer images *)
  Definition F_layer (x : layer) : res (list layer) :=
    let '(l, b, r) := x in rmap (fun d => map (l_extend (Fo l) (Fo r)) (layers d)) (F_box b).
  Lemma whisker_layers l d r : layers (tensor (tensor (id l) d) (id r)) = map (l_extend l r) (layers d).
  Proof.
    rewrite !layers_tensor. cbn. rewrite !app_nil_r, map_map. apply map_ext.
    intro x. now rewrite l_extend_extend.
  Qed.
  Lemma F_steps ls : forall acc c, chain (dom (Diag (cod acc) c [])) [] (cod acc) ->
    forall d, chain d ls c -> cod acc = Fo d ->
    foldM (F_step custom_ob custom_ar) ls acc =
      (do xs <- mapM F_layer ls; Ok (Diag (dom acc) (Fo c) (layers acc ++ List.concat xs))).
  Proof.
    induction ls as [|x ls IH]; intros acc c _ d Hc E; cbn [foldM mapM].
    - cbn in *. subst d. rewrite app_nil_r, <- E. destruct acc; auto.
    - destruct x as [[l b] r]. cbn in Hc. destruct Hc as [Hd Hc].
      cbn [F_step F_layer]. rewrite !F_ty_eq. cbn [bind].
      destruct (F_box b) as [fb|e] eqn:Eb; cbn [bind rmap]; auto.
      destruct (F_box_ends Eb) as [E1 E2].
      rewrite d_then_ok. 2:{ rewrite !dom_tensor. cbn. rewrite E, Hd, !Fo_app, E1. now rewrite app_assoc. }
      cbn [bind]. rewrite (IH _ c eq_refl _ Hc).
      2:{ cbn [cod]. rewrite !cod_tensor. cbn. rewrite !Fo_app, E2. now rewrite app_assoc. }
      destruct (mapM F_layer ls) as [xs|]; cbn; auto. rewrite whisker_layers. now rewrite <- app_assoc.
  Qed.
  Lemma F_diag_eq d : chain (dom d) (layers d) (cod d) ->
    F_diag d = do xs <- mapM F_layer (layers d); Ok (Diag (Fo (dom d)) (Fo (cod d)) (List.concat xs)).
  Proof.
    intro H. unfold FunctorModel.F_diag. rewrite F_ty_eq. cbn [rmap bind].
    destruct (layers d) as [|x ls] eqn:E.
    - cbn in H. rewrite F_check_ok; [cbn; now rewrite <- H|reflexivity|cbn; now rewrite <- H].
    - rewrite (F_steps (acc := id (Fo (dom d))) (c := cod d) eq_refl H eq_refl).
      cbn [dom layers id app]. destruct (mapM F_layer (x :: ls)) as [xs|e]; cbn [bind].
      + now rewrite F_check_ok.
      + reflexivity.
  Qed.
  Lemma mapM_app A B (f : A -> res B) l k : mapM f (l ++ k) = do x <- mapM f l; do y <- mapM f k; Ok (x ++ y).
  Proof.
    induction l as [|a l IH]; cbn; [now destruct (mapM f k)|]. destruct (f a); cbn; auto.
    rewrite IH. destruct (mapM f l); cbn; auto. now destruct (mapM f k).
  Qed.

  Lemma F_then a b c : wf a -> wf b -> d_then a b = Ok c ->
    F_diag c = do x <- F_diag a; do y <- F_diag b; d_then x y.
  Proof.
    intros Ha Hb Hc. pose proof (wf_then Ha Hb Hc) as Wc.
    destruct Ha as [Ha _], Hb as [Hb _], Wc as [Wc _].
    rewrite !F_diag_eq by assumption.
    apply d_then_inv in Hc. destruct Hc as [E ->]. cbn [layers dom cod]. rewrite mapM_app.
    destruct (mapM F_layer (layers a)) as [xs|]; cbn; auto.
    destruct (mapM F_layer (layers b)) as [ys|]; cbn; auto.
    rewrite d_then_ok by (cbn; now rewrite E). cbn. now rewrite concat_app.
  Qed.
  Lemma F_layer_extend l r x : F_layer (l_extend l r x) = rmap (map (l_extend (Fo l) (Fo r))) (F_layer x).
  Proof.
    destruct x as [[l' b] r']. cbn. destruct (F_box b); cbn; auto. rewrite map_map. f_equal. apply map_ext.
    intro y. rewrite l_extend_extend, !Fo_app. reflexivity.
  Qed.
  Lemma mapM_F_extend l r ls : mapM F_layer (map (l_extend l r) ls) =
    rmap (map (map (l_extend (Fo l) (Fo r)))) (mapM F_layer ls).
  Proof.
    induction ls as [|x ls IH]; cbn [map mapM]; auto. rewrite F_layer_extend, IH.
    destruct (F_layer x); cbn; auto. now destruct (mapM F_layer ls).
  Qed.
  Lemma F_tensor a b : wf a -> wf b ->
    F_diag (tensor a b) = do x <- F_diag a; do y <- F_diag b; Ok (tensor x y).
  Proof.
    intros Ha Hb. pose proof (wf_tensor Ha Hb) as Wc.
    destruct Ha as [Ha _], Hb as [Hb _], Wc as [Wc _].
    rewrite !F_diag_eq by assumption.
    rewrite layers_tensor, dom_tensor, cod_tensor, mapM_app, !mapM_F_extend.
    destruct (mapM F_layer (layers a)) as [xs|]; cbn; auto.
    destruct (mapM F_layer (layers b)) as [ys|]; cbn; auto.
    rewrite tensor_eq. cbn. rewrite !Fo_app. f_equal. f_equal. rewrite concat_app, !concat_map. reflexivity.
  Qed.
  Lemma F_to_diag b : F_diag (to_diag b) = F_box b.
  Proof.
    rewrite F_diag_eq. 2:{ cbn. now rewrite !app_nil_r. }
    cbn. destruct (F_box b) as [x|] eqn:E; cbn; auto. rewrite app_nil_r, map_l_extend_nil.
    destruct (F_box_ends E) as [<- <-]. now destruct x.
  Qed.

  (** ** typing *)
  Lemma typed_check r d c : (exists x, r = Ok x /\ typed x (Fo d) (Fo c)) ->
    exists x, F_check d c r = Ok x /\ typed x (Fo d) (Fo c).
  Proof. intros (x & -> & T). exists x. split; auto. destruct T as (W & T1 & T2). now rewrite F_check_ok. Qed.
  Lemma short_cases (t : ty) : List.length t <= 1 -> t = [] \/ exists a, t = [a].
  Proof. destruct t as [|a [|b t]]; cbn; eauto; lia. Qed.
  Lemma basics_basic b : basic b -> basics b = [if (b_z b =? 0)%Z then b else b_unwind b].
  Proof. now destruct b. Qed.
  Lemma basic_typed b : basic b -> All respects (basics b) -> exists x, F_box b = Ok x /\ typed x (Fo (b_dom b)) (Fo (b_cod b)).
  Proof.
    intros B H. rewrite basics_basic in H by auto. cbn in H. destruct H as [(d & E & T) _].
    rewrite F_box_basic by auto. apply typed_check. unfold F_basic.
    revert E T. destruct (Z.eqb_spec (b_z b) 0) as [Hz|Hz]; [eauto|]. intros E (W & T1 & T2).
    rewrite E. rewrite F_check_ok by auto. cbn. eexists; split; eauto. unfold b_unwind in T1, T2. rewrite b_dom_rotate, Fo_rot in T1.
    rewrite b_cod_rotate, Fo_rot in T2. split; [now apply wf_rotate|]. cbn. rewrite T1, T2, !rot_add.
    now rewrite Z.add_opp_diag_r, !rot_0.
  Qed.
  Lemma box_typed b : box_ok b -> rev_ok b -> All respects (basics b) ->
    exists x, F_box b = Ok x /\ typed x (Fo (b_dom b)) (Fo (b_cod b)).
  Proof.
    induction b; intros Ho Hr Hb; try (apply basic_typed; [exact I|exact Hb]);
      cbn [FunctorModel.F_box b_dom b_cod b_end]; apply typed_check; rewrite ?F_ty_eq; cbn [bind]; rewrite ?Fo_single.
    - (* Cap *) cbn in Ho. subst l. change [rot_atom (if rv then -1 else 1) r; r] with ([rot_atom (if rv then -1 else 1) r] ++ [r]).
      destruct rv; cbn [b_dom b_cod b_end].
      + change [rot_atom (-1) r; r] with ([rot_atom (-1) r] ++ [r]). rewrite Fo_app, !Fo_single, Fa_rot. cbn [rev_ok fst rot_atom] in Hr.
        destruct (short_cases (t := Fa r)) as [->|[a ->]]; [unfold FunctorSpec.Fa; now rewrite rot_length| |].
        * eexists; split; [reflexivity|]. repeat split.
        * rewrite rot_single, caps_reversed_atomic. eexists; split; [reflexivity|]. now apply typed_to_diag.
      + change [rot_atom 1 r; r] with ([rot_atom 1 r] ++ [r]). rewrite Fo_app, !Fo_single, Fa_rot. apply caps_typed.
    - cbn in Ho. subst l. destruct rv; cbn [b_dom b_cod b_end].
      + change [rot_atom 1 r; r] with ([rot_atom 1 r] ++ [r]). rewrite Fo_app, !Fo_single, Fa_rot. cbn [rev_ok fst rot_atom] in Hr.
        destruct (short_cases (t := Fa r)) as [->|[a ->]]; [unfold FunctorSpec.Fa; now rewrite rot_length| |].
        * eexists; split; [reflexivity|]. repeat split.
        * rewrite rot_single, cups_reversed_atomic. eexists; split; [reflexivity|]. now apply typed_to_diag.
      + change [rot_atom (-1) r; r] with ([rot_atom (-1) r] ++ [r]). rewrite Fo_app, !Fo_single, Fa_rot. apply cups_typed.
    - change [l; r] with ([l] ++ [r]). change [r; l] with ([r] ++ [l]). rewrite !Fo_app, !Fo_single. apply swap_typed.
    - rewrite !Fo_pow. apply spider_typed.
    - destruct (IHb Ho Hr Hb) as (x & -> & W & E1 & E2). cbn. eexists; split; [reflexivity|].
      split; [now apply wf_dagger|]. rewrite d_dagger_eq by auto. cbn. auto.
  Qed.
  Lemma layers_typed ls : forall d c, chain d ls c ->
    All (fun x => box_ok (l_box x) /\ rev_ok (l_box x) /\ All respects (basics (l_box x))) ls ->
    exists xs, mapM F_layer ls = Ok xs /\ chain (Fo d) (List.concat xs) (Fo c) /\ All (fun x => box_ok (l_box x)) (List.concat xs).
  Proof.
    induction ls as [|x ls IH]; intros d c Hc H; cbn [mapM].
    - exists []. cbn in *. subst. auto.
    - cbn in Hc, H. destruct Hc as [-> Hc], H as [(H1 & H2 & H3) H].
      destruct (IH _ _ Hc H) as (xs & -> & C & B). destruct x as [[l b] r]. cbn [l_box l_dom l_cod F_layer] in *.
      destruct (box_typed H1 H2 H3) as (y & -> & [W1 W2] & E1 & E2). cbn. eexists; split; [reflexivity|]. cbn. split.
      + eapply chain_app_i; [|exact C]. rewrite !Fo_app, <- E1, <- E2. now apply chain_extend.
      + apply All_app. split; auto. now apply All_extend.
  Qed.
  Lemma diag_typed d : wf d -> All (fun x => rev_ok (l_box x) /\ All respects (basics (l_box x))) (layers d) ->
    exists e, F_diag d = Ok e /\ typed e (Fo (dom d)) (Fo (cod d)).
  Proof.
    intros [W1 W2] H. rewrite F_diag_eq by auto.
    destruct (layers_typed W1 (ls := layers d)) as (xs & -> & C & B).
    { clear W1. induction (layers d); cbn in *; tauto. }
    cbn. eexists; split; [reflexivity|]. repeat split; auto.
  Qed.

  (** ** cups and caps of compound types *)
  Lemma cup_layers_app s t : cup_layers (s ++ t) = map (l_extend (rot (-1) t) t) (cup_layers s) ++ cup_layers t.
  Proof.
    induction s as [|a s IH]; cbn; auto. rewrite IH. f_equal. f_equal. f_equal.
    rewrite map_app, rev_app_distr. now rewrite (rot_m1 t).
  Qed.
  Lemma F_cups t : F_diag (Diag (rot (-1) t ++ t) [] (cup_layers t)) =
    Ok (Diag (rot (-1) (Fo t) ++ Fo t) [] (cup_layers (Fo t))).
  Proof.
    rewrite F_diag_eq. 2:{ cbn. rewrite rot_m1. apply cup_layers_wf. }
    cbn [dom cod layers].
    enough (exists xs, mapM F_layer (cup_layers t) = Ok xs /\ List.concat xs = cup_layers (Fo t)) as (xs & -> & <-).
    { cbn. now rewrite Fo_app, Fo_rot. }
    induction t as [|a t (xs & IH1 & IH2)]; cbn [cup_layers mapM]; [now exists []|].
    rewrite IH1. cbn [F_layer FunctorModel.F_box]. rewrite !F_ty_eq. cbn [bind]. rewrite !Fo_single, Fa_rot, cups_eq.
    rewrite F_check_ok; cbn [dom cod].
    2:{ cbn [b_dom b_end]. change [rot_atom (-1) a; a] with ([rot_atom (-1) a] ++ [a]). now rewrite Fo_app, !Fo_single, Fa_rot. }
    2:{ reflexivity. }
    cbn. eexists; split; [reflexivity|]. cbn. rewrite Fo_cons, cup_layers_app, IH2. f_equal.
    rewrite <- rot_m1. now rewrite Fo_rot.
  Qed.
  Lemma cap_layers_app s t pre : cap_layers pre (s ++ t) = cap_layers pre s ++ cap_layers (pre ++ s) t.
  Proof.
    revert pre. induction s as [|a s IH]; intro pre; cbn; [now rewrite app_nil_r|]. rewrite IH, <- app_assoc. reflexivity.
  Qed.
  Lemma cap_layers_pre s : forall pre q, cap_layers (q ++ pre) s =
    map (l_extend (map (rot_atom 1) q) (rev q)) (cap_layers pre s).
  Proof.
    induction s as [|a s IH]; intros pre q; cbn; auto. rewrite map_app, rev_app_distr. f_equal.
    rewrite <- app_assoc. apply IH.
  Qed.
  Lemma rev_rot t : rev (rot 1 t) = map (rot_atom 1) t.
  Proof. now rewrite rot_p1, rev_involutive. Qed.
  Lemma F_caps t : F_diag (Diag [] (rot 1 t ++ t) (cap_layers [] (rev t))) =
    Ok (Diag [] (rot 1 (Fo t) ++ Fo t) (cap_layers [] (rev (Fo t)))).
  Proof.
    rewrite F_diag_eq.
    2:{ cbn. pose proof (cap_layers_wf (rev t) []) as [H _]. cbn [app map rev] in H.
        rewrite rev_involutive, map_rev in H. now rewrite rot_p1. }
    cbn [dom cod layers].
    enough (exists xs, mapM F_layer (cap_layers [] (rev t)) = Ok xs /\ List.concat xs = cap_layers [] (rev (Fo t))) as (xs & -> & <-).
    { cbn. now rewrite Fo_app, Fo_rot. }
    induction t as [|a t (xs & IH1 & IH2)]; cbn [rev]; [now exists []|].
    rewrite cap_layers_app, mapM_app, IH1. cbn [app cap_layers mapM bind].
    cbn [F_layer FunctorModel.F_box]. rewrite !F_ty_eq. cbn [bind]. rewrite !Fo_single, Fa_rot, caps_eq.
    rewrite F_check_ok; cbn [dom cod].
    2:{ reflexivity. }
    2:{ cbn [b_cod b_end]. change [rot_atom 1 a; a] with ([rot_atom 1 a] ++ [a]). now rewrite Fo_app, !Fo_single, Fa_rot. }
    cbn. eexists; split; [reflexivity|]. rewrite concat_app. cbn. rewrite app_nil_r, IH2.
    rewrite Fo_cons, rev_app_distr, cap_layers_app. f_equal. cbn [app].
    pose proof (cap_layers_pre (rev (Fa a)) [] (rev (Fo t))) as H. rewrite app_nil_r in H. rewrite H.
    rewrite !rev_involutive. f_equal. f_equal. rewrite map_rev, <- rot_p1, Fo_rot, rot_p1, map_rev. reflexivity.
  Qed.

  (** ** dagger and rotation *)

  Lemma atomic_Fa a : atomic_image a -> exists b, Fa a = [b].
  Proof.
    unfold FunctorSpec.atomic_image, FunctorSpec.Fa. intro H. destruct (ob (fst a)) as [|x [|y t]]; cbn in H; try lia.
    rewrite rot_single. eauto.
  Qed.
  Lemma simple_rev_ok b : simple b -> rev_ok b.
  Proof.
    unfold FunctorSpec.simple, FunctorSpec.atomic_image. destruct b as [| | ? ? [] | ? ? [] | | |[]| |]; cbn; try tauto; intros [-> _]; auto.
  Qed.

  (** images of simple boxes *)
  Lemma F_cap l r rv l' r' : box_ok (Cap l r rv) -> Fa l = [l'] -> Fa r = [r'] ->
    F_box (Cap l r rv) = Ok (to_diag (Cap l' r' rv)).
  Proof.
    intros Ho El Er. cbn [FunctorModel.F_box]. rewrite !F_ty_eq. cbn [bind]. rewrite !Fo_single, El, Er.
    assert (E : l' = if rv then rot_atom (-1) r' else rot_atom 1 r').
    { cbn in Ho. subst l. destruct rv; rewrite Fa_rot, Er, rot_single in El; congruence. }
    subst l'. destruct rv; cbn [caps]; unfold mk_cap, cap_adjoint; rewrite rot_single, ty_eqb_refl; cbn [rmap];
    (rewrite F_check_ok; [reflexivity|reflexivity|]); cbn [b_cod b_end to_diag cod]; rewrite !Fo_cons, El, Er; reflexivity.
  Qed.
  Lemma F_cup l r rv l' r' : box_ok (Cup l r rv) -> Fa l = [l'] -> Fa r = [r'] ->
    F_box (Cup l r rv) = Ok (to_diag (Cup l' r' rv)).
  Proof.
    intros Ho El Er. cbn [FunctorModel.F_box]. rewrite !F_ty_eq. cbn [bind]. rewrite !Fo_single, El, Er.
    assert (E : l' = if rv then rot_atom 1 r' else rot_atom (-1) r').
    { cbn in Ho. subst l. destruct rv; rewrite Fa_rot, Er, rot_single in El; congruence. }
    subst l'. destruct rv; cbn [cups]; unfold mk_cup, cup_adjoint; rewrite rot_single, ty_eqb_refl; cbn [rmap];
    (rewrite F_check_ok; [reflexivity| |reflexivity]); cbn [b_dom b_end to_diag dom]; rewrite !Fo_cons, El, Er; reflexivity.
  Qed.
  Lemma F_swap l r l' r' : Fa l = [l'] -> Fa r = [r'] -> F_box (Swap l r) = Ok (to_diag (Swap l' r')).
  Proof.
    intros El Er. cbn [FunctorModel.F_box]. rewrite !F_ty_eq. cbn [bind]. rewrite !Fo_single, El, Er.
    cbn [swap]. rewrite F_check_ok; [reflexivity| |]; cbn [b_dom b_cod b_end to_diag dom cod]; rewrite !Fo_cons, El, Er; reflexivity.
  Qed.
  Lemma ty_pow_single (a : atom) n : ty_pow [a] n = repeat a n.
  Proof. induction n; cbn; auto. now rewrite IHn. Qed.
  Lemma F_spider t n m t' : Fa t = [t'] -> F_box (Spider t n m) = Ok (to_diag (Spider t' n m)).
  Proof.
    intros E. cbn [FunctorModel.F_box]. rewrite !F_ty_eq. cbn [bind]. rewrite !Fo_single, E.
    cbn [spider]. rewrite F_check_ok; [reflexivity| |]; cbn [b_dom b_cod b_end to_diag dom cod]; rewrite Fo_pow, E, ty_pow_single; reflexivity.
  Qed.
  Lemma d_dagger_to_diag b : d_dagger (to_diag b) = to_diag (b_dagger b).
  Proof. unfold d_dagger, to_diag. cbn. now rewrite b_dom_dagger, b_cod_dagger. Qed.
  Lemma d_rotate_to_diag z b : d_rotate z (to_diag b) = to_diag (b_rotate z b).
  Proof.
    unfold d_rotate, to_diag. cbn. rewrite b_dom_rotate, b_cod_rotate. rewrite !rot_nil. now destruct (Z.odd z).
  Qed.

  Lemma F_dagg b x : typed x (Fo (b_dom b)) (Fo (b_cod b)) -> F_box b = Ok x -> F_box (Dagg b) = Ok (d_dagger x).
  Proof.
    intros (W & E1 & E2) E. cbn [FunctorModel.F_box]. rewrite E. cbn [rmap].
    apply F_check_ok; rewrite d_dagger_eq by auto; cbn; auto.
  Qed.
  Lemma dag_normal_rotate z b : dag_normal b -> dag_normal (b_rotate z b).
  Proof. destruct b as [| | | | | |[]| |]; cbn; auto; destruct (Z.odd z); cbn; auto. Qed.
  Lemma All_rotate (P : box -> Prop) z ls : (forall b, P b -> P (b_rotate z b)) ->
    All (fun x => P (l_box x)) ls -> All (fun x => P (l_box x)) (map (l_rotate z) ls).
  Proof. intro H. rewrite All_map. apply All_impl. intros x Hx. rewrite l_box_rotate. auto. Qed.
  Lemma image_of_basic (P : box -> Prop) b x : (forall z b, P b -> P (b_rotate z b)) ->
    basic b -> All (image_all P) (basics b) -> F_box b = Ok x -> All (fun y => P (l_box y)) (layers x).
  Proof.
    intros HP B H E. rewrite basics_basic in H by auto. destruct H as [H _]. rewrite F_box_basic in E by auto.
    apply F_check_inv in E. destruct E as [E _]. unfold F_basic in E. revert H E.
    destruct (b_z b =? 0)%Z; intros H E; [auto|].
    destruct (custom_ar (b_unwind b)) as [y|] eqn:Ey; [|cbn in E; congruence].
    destruct (f_check _ _ _ _) as [y'|] eqn:Ec; cbn in E; [|congruence].
    apply F_check_inv in Ec. destruct Ec as [[= <-] _]. inversion E; subst. cbn. apply All_rotate; auto.
  Qed.

  Lemma F_box_dagger b : box_ok b -> simple b -> All respects (basics b) -> All (image_all dag_normal) (basics b) ->
    exists x, F_box b = Ok x /\ typed x (Fo (b_dom b)) (Fo (b_cod b)) /\ F_box (b_dagger b) = Ok (d_dagger x).
  Proof.
    intros Ho Hs Hr Hi. destruct (box_typed Ho (simple_rev_ok Hs) Hr) as (x & E & T). exists x. split; [auto|]. split; [auto|].
    destruct b as [| |l r rv|l r rv|l r|t n m|b'| |]; cbn [b_dagger simple] in *.
    - now apply F_dagg.
    - now apply F_dagg.
    - destruct Hs as [H1 H2]. destruct (atomic_Fa H1) as [l' El], (atomic_Fa H2) as [r' Er].
      rewrite (F_cap Ho El Er) in E. inversion E; subst. rewrite d_dagger_to_diag. apply F_cup; auto.
      cbn in *. now destruct rv.
    - destruct Hs as [H1 H2]. destruct (atomic_Fa H1) as [l' El], (atomic_Fa H2) as [r' Er].
      rewrite (F_cup Ho El Er) in E. inversion E; subst. rewrite d_dagger_to_diag. apply F_cap; auto.
      cbn in *. now destruct rv.
    - destruct Hs as [H1 H2]. destruct (atomic_Fa H1) as [l' El], (atomic_Fa H2) as [r' Er].
      rewrite (F_swap El Er) in E. inversion E; subst. rewrite d_dagger_to_diag. now apply F_swap.
    - destruct (atomic_Fa Hs) as [t' Et].
      rewrite (F_spider _ _ Et) in E. inversion E; subst. rewrite d_dagger_to_diag. now apply F_spider.
    - assert (B : basic b') by (destruct b'; cbn in *; tauto).
      assert (Hr' : rev_ok b') by (destruct b'; cbn in *; tauto).
      destruct (box_typed (b := b') Ho Hr' Hr) as (y & Ey & Ty).
      rewrite (F_dagg Ty Ey) in E. inversion E; subst. rewrite Ey. f_equal. symmetry. apply d_dagger_invol.
      + apply Ty.
      + apply (image_of_basic (b := b')); auto. intros; now apply dag_normal_rotate.
    - tauto.
    - tauto.
  Qed.

  Lemma F_layers_dagger ls : forall d c, chain d ls c ->
    All (fun x => box_ok (l_box x) /\ simple (l_box x) /\ All respects (basics (l_box x)) /\ All (image_all dag_normal) (basics (l_box x))) ls ->
    exists xs, mapM F_layer ls = Ok xs /\ mapM F_layer (map l_dagger (rev ls)) = Ok (map (fun l => map l_dagger (rev l)) (rev xs)).
  Proof.
    induction ls as [|x ls IH]; intros d c Hc H; [exists []; auto|].
    cbn in Hc, H. destruct Hc as [_ Hc], H as [(H1 & H2 & H3 & H4) H].
    destruct (IH _ _ Hc H) as (xs & E1 & E2). destruct x as [[l b] r]. cbn [l_box] in *.
    destruct (F_box_dagger H1 H2 H3 H4) as (y & Ey & Ty & Ed).
    exists (map (l_extend (Fo l) (Fo r)) (layers y) :: xs). cbn [mapM F_layer]. rewrite E1, Ey. split; [reflexivity|].
    cbn [rev]. rewrite map_app, mapM_app, E2. cbn [map l_dagger mapM F_layer bind]. rewrite Ed. cbn [rmap bind].
    f_equal. rewrite map_app. f_equal. cbn. f_equal. rewrite d_dagger_eq by apply Ty. cbn. rewrite <- map_rev, !map_map.
    apply map_ext. intros [[? ?] ?]. reflexivity.
  Qed.
  Lemma concat_rev_map A B (f : A -> B) (xs : list (list A)) :
    List.concat (map (fun l => map f (rev l)) (rev xs)) = map f (rev (List.concat xs)).
  Proof.
    induction xs as [|x xs IH]; cbn; auto. rewrite map_app, concat_app, IH. cbn. now rewrite app_nil_r, rev_app_distr, map_app.
  Qed.
  Lemma F_dagger d : wf d ->
    All (fun x => simple (l_box x) /\ All respects (basics (l_box x)) /\ All (image_all dag_normal) (basics (l_box x))) (layers d) ->
    exists e, F_diag d = Ok e /\ F_diag (d_dagger d) = Ok (d_dagger e).
  Proof.
    intros W H. destruct (diag_typed W) as (e & E & T).
    { revert H. apply All_impl. intros x (S1 & S2 & _). split; auto. now apply simple_rev_ok. }
    exists e. split; auto. pose proof (wf_dagger W) as [Wd _]. rewrite F_diag_eq by auto.
    destruct W as [W1 W2] eqn:EW. rewrite F_diag_eq in E by auto. rewrite d_dagger_eq by auto. cbn [dom cod layers].
    destruct (F_layers_dagger W1 (ls := layers d)) as (xs & E1 & E2).
    { clear - H W2. induction (layers d); cbn in *; tauto. }
    rewrite E2. cbn [bind]. rewrite E1 in E. cbn in E. inversion E; subst e.
    rewrite d_dagger_eq by apply T. cbn [dom cod layers]. now rewrite concat_rev_map.
  Qed.

  (** rotation *)
  Lemma simple_small b : simple b -> small_frames b.
  Proof. destruct b as [| | | | | |[]| |]; cbn; tauto. Qed.
  Lemma comp_small_rotate z cs : All (AllC (fun b => small_frames b -> small_frames (b_rotate z b))) cs ->
    All (comp_sf small_frames) cs -> All (comp_sf small_frames) (map (rot_comp_with (b_rotate z) z) cs).
  Proof.
    induction cs as [|k cs IH]; cbn; auto. intros [H1 H2] [S1 S2]. split; auto.
    destruct k as [b|d c ls]; cbn in *; auto. clear - H1 S1.
    induction ls as [|[[l b] r] ls IH]; cbn in *; auto. destruct H1, S1. split; auto. now destruct (Z.odd z); cbn; auto.
  Qed.
  Lemma small_frames_rotate z b : small_frames b -> small_frames (b_rotate z b).
  Proof.
    induction b using box_ind'; cbn; auto; try (destruct (Z.odd z); now cbn);
    intros [L A]; rewrite rev_length, map_length; split; auto; rewrite All_rev; now apply comp_small_rotate.
  Qed.

  Lemma unwind_rotate z b : basic b -> small_frames b -> b_unwind (b_rotate z b) = b_unwind b.
  Proof.
    intros B H. unfold b_unwind. rewrite b_rotate_add by auto. f_equal. destruct b; cbn in *; try tauto; lia.
  Qed.
  Lemma basics_rotate z b : basic b -> small_frames b -> basics (b_rotate z b) = [b_unwind b].
  Proof.
    intros B H. assert (B' : basic (b_rotate z b)) by (destruct b; cbn in *; tauto).
    rewrite basics_basic by auto. destruct (Z.eqb_spec (b_z (b_rotate z b)) 0) as [Hz|Hz]; [|now rewrite unwind_rotate].
    rewrite <- (unwind_rotate z B H). unfold b_unwind. rewrite Hz. now rewrite b_rotate_0 by now apply small_frames_rotate.
  Qed.
  Lemma basics_unwind b : basic b -> small_frames b -> basics b = [b_unwind b].
  Proof. intros B H. rewrite <- (basics_rotate 0 B H). now rewrite b_rotate_0. Qed.
  Lemma F_box_unwind b x : basic b -> small_frames b -> respects (b_unwind b) ->
    custom_ar (b_unwind b) = Ok x -> All (fun y => small_frames (l_box y)) (layers x) ->
    F_box b = Ok (d_rotate (b_z b) x).
  Proof.
    intros B H R E SF. destruct R as (x' & E' & T). assert (x' = x) by congruence. subst x'.
    assert (A : F_box b = Ok (if (b_z b =? 0)%Z then x else d_rotate (b_z b) x)).
    { destruct (basic_typed B) as (y & Ey & _).
      { rewrite basics_unwind by auto. cbn. split; auto. exists x; auto. }
      rewrite Ey. rewrite F_box_basic in Ey by auto. apply F_check_inv in Ey. destruct Ey as [Ey _]. rewrite <- Ey.
      unfold F_basic. destruct (Z.eqb_spec (b_z b) 0) as [Hz|Hz].
      - rewrite <- E. unfold b_unwind. rewrite Hz. now rewrite b_rotate_0.
      - rewrite E, F_check_ok by apply T. reflexivity. }
    rewrite A. destruct (Z.eqb_spec (b_z b) 0) as [->|]; auto. now rewrite d_rotate_0.
  Qed.
  Lemma F_box_rotate z b : box_ok b -> simple b -> All respects (basics b) -> All (image_all small_frames) (basics b) ->
    exists x, F_box b = Ok x /\ typed x (Fo (b_dom b)) (Fo (b_cod b)) /\ F_box (b_rotate z b) = Ok (d_rotate z x).
  Proof.
    assert (G : forall b, basic b -> small_frames b -> All respects (basics b) -> All (image_all small_frames) (basics b) ->
      exists x, F_box b = Ok x /\ typed x (Fo (b_dom b)) (Fo (b_cod b)) /\ F_box (b_rotate z b) = Ok (d_rotate z x)).
    { clear b. intros b B H Hr Hi. destruct (basic_typed B Hr) as (x & Ex & Tx). exists x. split; [auto|]. split; [auto|].
      rewrite basics_unwind in Hr, Hi by auto. destruct Hr as [Hr _], Hi as [Hi _].
      pose proof Hr as (y & Ey & Ty). rewrite (F_box_unwind B H Hr Ey (Hi _ Ey)) in Ex. inversion Ex; subst x.
      assert (B' : basic (b_rotate z b)) by (destruct b; cbn in *; tauto).
      rewrite (F_box_unwind (b := b_rotate z b) (x := y)); rewrite ?unwind_rotate; auto using small_frames_rotate.
      rewrite d_rotate_add by now apply Hi. f_equal. f_equal. destruct b; cbn in *; try tauto; lia. }
    intros Ho Hs Hr Hi. pose proof (simple_small Hs) as SF.
    destruct b as [| |l r rv|l r rv|l r|t n m|b'| |]; try (apply G; auto; exact I).
    - destruct (box_typed Ho (simple_rev_ok Hs) Hr) as (x & E & T). exists x. split; [auto|]. split; [auto|].
      destruct Hs as [H1 H2]. destruct (atomic_Fa H1) as [l' El], (atomic_Fa H2) as [r' Er].
      rewrite (F_cap Ho El Er) in E. inversion E; subst. rewrite d_rotate_to_diag.
      pose proof (box_ok_rotate z _ Ho) as Ho'. cbn [b_rotate] in *.
      destruct (Z.odd z); (apply F_cap; [exact Ho'| |]); rewrite Fa_rot, ?El, ?Er; apply rot_single.
    - destruct (box_typed Ho (simple_rev_ok Hs) Hr) as (x & E & T). exists x. split; [auto|]. split; [auto|].
      destruct Hs as [H1 H2]. destruct (atomic_Fa H1) as [l' El], (atomic_Fa H2) as [r' Er].
      rewrite (F_cup Ho El Er) in E. inversion E; subst. rewrite d_rotate_to_diag.
      pose proof (box_ok_rotate z _ Ho) as Ho'. cbn [b_rotate] in *.
      destruct (Z.odd z); (apply F_cup; [exact Ho'| |]); rewrite Fa_rot, ?El, ?Er; apply rot_single.
    - destruct (box_typed Ho (simple_rev_ok Hs) Hr) as (x & E & T). exists x. split; [auto|]. split; [auto|].
      destruct Hs as [H1 H2]. destruct (atomic_Fa H1) as [l' El], (atomic_Fa H2) as [r' Er].
      rewrite (F_swap El Er) in E. inversion E; subst. rewrite d_rotate_to_diag. cbn [b_rotate].
      destruct (Z.odd z); apply F_swap; rewrite Fa_rot, ?El, ?Er; apply rot_single.
    - destruct (box_typed Ho (simple_rev_ok Hs) Hr) as (x & E & T). exists x. split; [auto|]. split; [auto|].
      destruct (atomic_Fa Hs) as [t' Et].
      rewrite (F_spider _ _ Et) in E. inversion E; subst. rewrite d_rotate_to_diag. cbn [b_rotate].
      apply F_spider. rewrite Fa_rot, Et. apply rot_single.
    - assert (B : basic b') by (destruct b'; cbn in *; tauto).
      destruct (G b' B SF Hr Hi) as (x & Ex & Tx & Er). exists (d_dagger x). split; [now apply F_dagg|].
      pose proof Tx as (W & T1 & T2). split.
      + split; [now apply wf_dagger|]. rewrite d_dagger_eq by auto. cbn. auto.
      + cbn [b_rotate]. rewrite (F_dagg (x := d_rotate z x)); auto; [now rewrite d_rotate_dagger|].
        split; [now apply wf_rotate|]. rewrite b_dom_rotate, b_cod_rotate, !Fo_rot. cbn. now rewrite T1, T2.
  Qed.
  Lemma l_rotate_extend z l r x : l_rotate z (l_extend l r x) =
    if Z.odd z then l_extend (rot z r) (rot z l) (l_rotate z x) else l_extend (rot z l) (rot z r) (l_rotate z x).
  Proof.
    destruct x as [[l' b] r']. unfold l_rotate, rot_layer_with, l_extend. rewrite !rot_app. now destruct (Z.odd z).
  Qed.
  Lemma F_rotate z d : wf d ->
    All (fun x => simple (l_box x) /\ All respects (basics (l_box x)) /\ All (image_all small_frames) (basics (l_box x))) (layers d) ->
    exists e, F_diag d = Ok e /\ F_diag (d_rotate z d) = Ok (d_rotate z e).
  Proof.
    intros W H. pose proof (wf_rotate z W) as [Wr _]. destruct W as [W1 W2].
    rewrite !F_diag_eq by auto. cbn [dom cod layers d_rotate].
    enough (exists xs, mapM F_layer (layers d) = Ok xs /\ mapM F_layer (map (l_rotate z) (layers d)) = Ok (map (map (l_rotate z)) xs)) as (xs & -> & ->).
    { cbn. eexists. split; [reflexivity|]. unfold d_rotate. cbn. now rewrite !Fo_rot, concat_map. }
    clear W1 Wr. induction (layers d) as [|x ls IH]; [exists []; auto|]. cbn in W2, H.
    destruct W2 as [W2 W2'], H as [(H1 & H2 & H3) H']. destruct (IH W2' H') as (xs & E1 & E2).
    destruct x as [[l b] r]. cbn [l_box] in *. destruct (F_box_rotate z W2 H1 H2 H3) as (y & Ey & _ & Er).
    exists (map (l_extend (Fo l) (Fo r)) (layers y) :: xs). cbn [map mapM F_layer]. rewrite Ey, E1, E2. split; [reflexivity|].
    unfold l_rotate at 1, rot_layer_with. destruct (Z.odd z) eqn:O; cbn [F_layer]; rewrite Er; cbn; rewrite !map_map, !Fo_rot;
      (f_equal; f_equal; apply map_ext; intro y'; rewrite l_rotate_extend, O; reflexivity).
  Qed.

  (** swap-only diagrams: the image permutes the blocks of wires *)
  Lemma run_extend X ls L R : forall (u v z w : list X), List.length u = List.length L ->
    run_layers ls v = Some w -> run_layers (map (l_extend L R) ls) (u ++ v ++ z) = Some (u ++ w ++ z).
  Proof.
    induction ls as [|x ls IH]; intros u v z w Hu; cbn [map run_layers].
    - now intros [= <-].
    - destruct x as [[l b] r]. cbn [l_extend run_layer]. destruct b; try congruence.
      destruct (skipn (List.length l) v) as [|a [|b v2]] eqn:E; try congruence.
      assert (Hv : v = firstn (List.length l) v ++ a :: b :: v2) by (rewrite <- E; symmetry; apply firstn_skipn).
      assert (Hl : List.length (firstn (List.length l) v) = List.length l).
      { rewrite firstn_length. apply (f_equal (@List.length _)) in E. rewrite skipn_length in E. cbn in E. lia. }
      set (v1 := firstn (List.length l) v) in *.
      assert (E1 : u ++ v ++ z = (u ++ v1) ++ a :: b :: v2 ++ z) by (rewrite Hv; now rewrite <- !app_assoc).
      rewrite E1. replace (List.length (L ++ l)) with (List.length (u ++ v1)) by (rewrite !app_length; lia).
      rewrite skipn_app, skipn_all, Nat.sub_diag. cbn [skipn app].
      rewrite firstn_app, firstn_all, Nat.sub_diag. cbn [firstn]. rewrite app_nil_r.
      intro HR. specialize (IH u _ z w Hu HR). rewrite <- IH. f_equal. now rewrite <- !app_assoc.
  Qed.
  Lemma F_swap_any l r : exists d, F_box (Swap l r) = Ok d /\ swap (Fa l) (Fa r) = Ok d.
  Proof.
    cbn [FunctorModel.F_box]. rewrite !F_ty_eq. cbn [bind]. rewrite !Fo_single.
    destruct (swap_typed (Fa l) (Fa r)) as (d & E & W & E1 & E2). exists d. split; auto. rewrite E.
    apply F_check_ok; cbn [b_dom b_cod b_end]; rewrite !Fo_cons; cbn; rewrite ?app_nil_r; auto.
  Qed.
  Lemma Forall2_split A B (P : A -> B -> Prop) l1 l2 v : Forall2 P (l1 ++ l2) v ->
    exists v1 v2, v = v1 ++ v2 /\ Forall2 P l1 v1 /\ Forall2 P l2 v2.
  Proof. intro H. apply Forall2_app_inv_l in H. destruct H as (v1 & v2 & H1 & H2 & ->). eauto. Qed.
  Lemma F2_len A B (P : A -> B -> Prop) l v : Forall2 P l v -> List.length v = List.length l.
  Proof. induction 1; cbn; auto. Qed.
  Lemma run_F X ls : forall d c (vs : list (list X)), chain d ls c -> All (fun x => is_swap (l_box x)) ls ->
    Forall2 (fun a v => List.length v = List.length (Fa a)) d vs ->
    exists ws xs, run_layers ls vs = Some ws /\ mapM F_layer ls = Ok xs /\
      run_layers (List.concat xs) (List.concat vs) = Some (List.concat ws).
  Proof.
    induction ls as [|x ls IH]; intros d c vs Hc Hs Hv.
    - exists vs, []. cbn. auto.
    - destruct x as [[l b] r]. cbn in Hc, Hs. destruct Hc as [-> Hc], Hs as [Hs Hs'].
      destruct b; cbn in Hs; try tauto. cbn [b_dom b_end] in Hv.
      apply Forall2_split in Hv. destruct Hv as (v1 & v' & -> & H1 & Hv').
      apply (Forall2_split (l1 := [l0; r0])) in Hv'. destruct Hv' as (v2 & v3 & -> & H2 & H3).
      inversion H2 as [|? x ? ? Hx H2']; subst. inversion H2' as [|? y ? ? Hy H2'']; subst. inversion H2''; subst. clear H2 H2' H2''.
      destruct (IH (l ++ [r0; l0] ++ r) c (v1 ++ [y; x] ++ v3)) as (ws & xs & R1 & R2 & R3); auto.
      { apply Forall2_app; auto. apply Forall2_app; auto. }
      destruct (F_swap_any l0 r0) as (e & Ee & Es).
      exists ws. exists (map (l_extend (Fo l) (Fo r)) (layers e) :: xs). repeat split.
      + cbn [run_layers run_layer].
        rewrite <- (F2_len H1). cbn [app]. rewrite skipn_app, skipn_all, Nat.sub_diag. cbn [skipn app].
        rewrite firstn_app, firstn_all, Nat.sub_diag. cbn [firstn]. rewrite app_nil_r. exact R1.
      + cbn [mapM F_layer]. rewrite Ee. cbn [rmap bind]. now rewrite R2.
      + cbn [List.concat]. rewrite run_layers_app.
        destruct (swap_spec (Fa l0) (Fa r0)) as (e' & Ee' & _ & Rn). assert (e' = e) by congruence. subst e'.
        specialize (Rn X x y Hx Hy). unfold run in Rn.
        rewrite !concat_app. cbn [List.concat]. rewrite app_nil_r.
        rewrite (run_extend (L := Fo l) (u := List.concat v1) (w := y ++ x) (Fo r) (List.concat v3)).
        2:{ clear - H1. induction H1; cbn; auto. now rewrite Fo_cons, !app_length, H, IHForall2. }
        2:{ exact Rn. }
        rewrite <- R3. rewrite !concat_app. cbn [List.concat]. now rewrite app_nil_r.
  Qed.
  Lemma F_swaps X d (vs : list (list X)) : wf d -> All (fun x => is_swap (l_box x)) (layers d) ->
    Forall2 (fun a v => List.length v = List.length (Fa a)) (dom d) vs ->
    exists e ws, F_diag d = Ok e /\ run d vs = Some ws /\ run e (List.concat vs) = Some (List.concat ws).
  Proof.
    intros [W1 W2] Hs Hv. rewrite F_diag_eq by auto. destruct (run_F W1 Hs Hv) as (ws & xs & R1 & -> & R3).
    cbn. eexists _, ws. split; [reflexivity|]. split; auto.
  Qed.
  Lemma F_spider_any t n m : exists d, F_box (Spider t n m) = Ok d /\ spider (Fa t) n m = Ok d.
  Proof.
    cbn [FunctorModel.F_box]. rewrite !F_ty_eq. cbn [bind]. rewrite !Fo_single.
    destruct (spider_typed (Fa t) n m) as (d & E & W & E1 & E2). exists d. split; auto. rewrite E.
    apply F_check_ok; cbn [b_dom b_cod b_end]; rewrite Fo_pow; auto.
  Qed.
End Facts.
