(** The caches of a functor do not change its results (proofs only). *)
From Verif Require Import PyBase PyFacts TyModel TyFacts DiagModel DiagSpec DiagFacts BoxEq FunctorModel.
Set Implicit Arguments. Unset Strict Implicit.

Lemma arrow_eqb_iff a b : arrow_eqb a b = true -> a = b.
Proof.
  destruct a, b; cbn; try congruence; intro H.
  - apply box_eqb_iff in H. now subst.
  - apply diagram_eqb_iff in H. now subst.
Qed.

Section Cache.
  Variable custom_ob : string -> res ty.
  Variable custom_ar : box -> res diagram.
  Notation F_ty := (F_ty custom_ob).
  Notation F_box := (F_box custom_ob custom_ar).
  Notation F_diag := (F_diag custom_ob custom_ar).
  Notation F_check := (f_check custom_ob).

  Definition F_arrow (a : arrow) : res diagram := match a with AB b => F_box b | AD d => F_diag d end.
  Definition ob_total : Prop := forall n, exists t, custom_ob n = Ok t.
  Definition keep A (r : res A) : Prop := match r with Ok _ => True | Err e => ob_total /\ e <> TypeError end.

  Definition oinv (s : caches) : Prop := forall t v, lookup ty_eqb t (ob_cache s) = Some v -> F_ty t = Ok v.
  Definition ainv (s : caches) : Prop := forall k v, lookup arrow_eqb k (ar_cache s) = Some v -> F_arrow k = Ok v.

  Definition osound A (m : M A) (r : res A) : Prop := forall s, oinv s ->
    fst (m s) = r /\ oinv (snd (m s)) /\ ar_cache (snd (m s)) = ar_cache s.
  Definition asound A (m : M A) (r : res A) : Prop := forall s, oinv s -> ainv s ->
    fst (m s) = r /\ oinv (snd (m s)) /\ (keep (fst (m s)) -> ainv (snd (m s))).

  Lemma osound_lift A (r : res A) : osound (lift r) r.
  Proof. intros s H. cbn. auto. Qed.
  Lemma osound_bind A B (m : M A) r (f : A -> M B) g :
    osound m r -> (forall a, osound (f a) (g a)) -> osound (mbind m f) (bind r g).
  Proof.
    intros Hm Hf s Hs. destruct (Hm s Hs) as (E1 & E2 & E3). unfold mbind.
    destruct (m s) as [x s1]. cbn in *. subst x. destruct r as [a|e]; cbn.
    - destruct (Hf a s1 E2) as (F1 & F2 & F3). rewrite <- E3. auto.
    - auto.
  Qed.
  Lemma osound_eq A (m : M A) r r' : r = r' -> osound m r -> osound m r'.
  Proof. now intros ->. Qed.
  Lemma osound_map A B (f : A -> B) m r : osound m r -> osound (mmap f m) (rmap f r).
  Proof.
    intro H. eapply osound_eq; [|apply (osound_bind H (g := fun a => Ok (f a)))]; [now destruct r|].
    intro a. apply osound_lift.
  Qed.
  Lemma osound_mapM A B (f : A -> M B) g l : (forall a, osound (f a) (g a)) -> osound (mmapM f l) (mapM g l).
  Proof.
    intro H. induction l as [|x l IH]; cbn [mmapM mapM]; [apply osound_lift|].
    apply osound_bind; [auto|]. intro y. apply osound_bind; [auto|]. intro. apply osound_lift.
  Qed.
  Lemma osound_cached t m : osound m (F_ty t) -> osound (cached_ob t m) (F_ty t).
  Proof.
    intros H s Hs. unfold cached_ob. destruct (lookup ty_eqb t (ob_cache s)) as [v|] eqn:L.
    - cbn. rewrite (Hs _ _ L). auto.
    - destruct (H s Hs) as (E1 & E2 & E3). destruct (m s) as [x s1]. cbn in *. subst x.
      destruct (F_ty t) as [v|e] eqn:E; cbn; repeat split; auto.
      intros t' v'. cbn. destruct (ty_eqb t' t) eqn:Q; [|apply E2].
      apply ty_eqb_iff in Q. subst. congruence.
  Qed.

  Lemma F_ty_single a : F_ty [a] = F_atom custom_ob a.
  Proof.
    unfold FunctorModel.F_ty. cbn. destruct (F_atom custom_ob a); cbn; auto. now rewrite app_nil_r.
  Qed.
  Lemma osound_atom0 n : osound (ob_atom0 custom_ob n) (F_ty [(n, 0%Z)]).
  Proof. apply osound_cached. rewrite F_ty_single. apply osound_lift. Qed.
  Lemma osound_atom a : osound (ob_atom custom_ob a) (F_ty [a]).
  Proof.
    unfold ob_atom. destruct a as [n z]. cbn [fst snd]. destruct (Z.eqb_spec z 0) as [->|Hz].
    - apply osound_atom0.
    - apply osound_cached. eapply osound_eq; [|apply osound_map, osound_atom0].
      rewrite !F_ty_single. unfold F_atom. cbn [fst snd]. now rewrite (proj2 (Z.eqb_neq z 0) Hz).
  Qed.
  Lemma mapM_ext A B (f g : A -> res B) l : (forall x, f x = g x) -> mapM f l = mapM g l.
  Proof. intro H. induction l; cbn; auto. now rewrite H, IHl. Qed.
  Lemma osound_ob t : osound (ob_with_cache custom_ob t) (F_ty t).
  Proof.
    destruct t as [|a [|b t]]; cbn [ob_with_cache].
    - apply osound_cached. apply osound_lift.
    - apply osound_atom.
    - apply osound_cached. unfold FunctorModel.F_ty. apply osound_map.
      eapply osound_eq; [|apply osound_mapM; intro; apply osound_atom].
      apply mapM_ext. intro. apply F_ty_single.
  Qed.

  Lemma asound_of A (m : M A) r : osound m r -> asound m r.
  Proof.
    intros H s Ho Ha. destruct (H s Ho) as (E1 & E2 & E3). repeat split; auto.
    intros _ k v. rewrite E3. apply Ha.
  Qed.
  Lemma asound_eq A (m : M A) r r' : r = r' -> asound m r -> asound m r'.
  Proof. now intros ->. Qed.
  Lemma asound_bind A B (m : M A) r (f : A -> M B) g :
    asound m r -> (forall a, asound (f a) (g a)) -> asound (mbind m f) (bind r g).
  Proof.
    intros Hm Hf s Ho Ha. destruct (Hm s Ho Ha) as (E1 & E2 & E3). unfold mbind.
    destruct (m s) as [x s1]. cbn in *. subst x. destruct r as [a|e]; cbn in *.
    - apply (Hf a s1 E2 (E3 I)).
    - auto.
  Qed.
  Lemma asound_map A B (f : A -> B) m r : asound m r -> asound (mmap f m) (rmap f r).
  Proof.
    intro H. eapply asound_eq; [|apply (asound_bind H (g := fun a => Ok (f a)))]; [now destruct r|].
    intro a. apply asound_of, osound_lift.
  Qed.
  Lemma asound_foldM S A (f : S -> A -> M S) g l : (forall s a, asound (f s a) (g s a)) ->
    forall s, asound (mfoldM f l s) (foldM g l s).
  Proof.
    intro H. induction l as [|x l IH]; intro s; cbn [mfoldM foldM]; [apply asound_of, osound_lift|].
    apply asound_bind; auto.
  Qed.

  Lemma F_ty_total : ob_total -> forall t, exists u, F_ty t = Ok u.
  Proof.
    intros H t. unfold FunctorModel.F_ty. enough (exists us, mapM (F_atom custom_ob) t = Ok us) as [us ->] by (cbn; eauto).
    induction t as [|a t [us IH]]; cbn; eauto. unfold F_atom at 1. destruct (H (fst a)) as [u ->].
    rewrite IH. destruct (snd a =? 0)%Z; cbn; eauto.
  Qed.
  Lemma asound_cached k d c body r : F_arrow k = F_check d c r -> asound body r ->
    asound (cached_ar custom_ob k d c body) (F_check d c r).
  Proof.
    intros EF H s Ho Ha. unfold cached_ar. destruct (lookup arrow_eqb k (ar_cache s)) as [v|] eqn:L.
    - cbn. rewrite <- EF, (Ha _ _ L). auto.
    - destruct (H s Ho Ha) as (E1 & E2 & E3). destruct (body s) as [x s1]. cbn in *. subst x.
      destruct r as [ret|e]; cbn in E3; [|cbn; auto].
      specialize (E3 I).
      set (s2 := Caches (ob_cache s1) ((k, ret) :: ar_cache s1)).
      assert (O2 : oinv s2) by exact E2.
      set (chk := mbind _ _).
      assert (G : osound chk (F_check d c (Ok ret))).
      { unfold chk, f_check. cbn [bind]. apply osound_bind; [apply osound_ob|]. intro fc.
        apply osound_bind; [apply osound_ob|]. intro fd. apply osound_lift. }
      destruct (G s2 O2) as (G1 & G2 & G3). repeat split; auto.
      intros K k' v'. rewrite G3. cbn. destruct (arrow_eqb k' k) eqn:Q; [|apply E3].
      apply arrow_eqb_iff in Q. subst k'. intros [= <-]. rewrite EF.
      rewrite G1 in K. clear - K.
      unfold f_check in *. cbn [bind] in *. unfold keep in K.
      destruct (F_ty c) as [fc|e] eqn:Ec; cbn [bind] in *.
      + destruct (F_ty d) as [fd|e] eqn:Ed; cbn [bind] in *.
        * destruct (negb (ty_eqb (cod ret) fc) || negb (ty_eqb (dom ret) fd)); auto.
          destruct K as [_ K]. congruence.
        * destruct K as [K _]. destruct (F_ty_total K d); congruence.
      + destruct K as [K _]. destruct (F_ty_total K c); congruence.
  Qed.

  (** unwound boxes are mapped directly by the callback *)
  Lemma asound_unwind b : b_z (b_unwind b) = 0%Z ->
    (forall x, x = b_unwind b -> F_box x = F_check (b_dom x) (b_cod x) (custom_ar x)) ->
    asound (cached_ar custom_ob (AB (b_unwind b)) (b_dom (b_unwind b)) (b_cod (b_unwind b)) (lift (custom_ar (b_unwind b))))
           (F_check (b_dom (b_unwind b)) (b_cod (b_unwind b)) (custom_ar (b_unwind b))).
  Proof. intros Hz H. apply asound_cached; [cbn; auto|apply asound_of, osound_lift]. Qed.
  Definition basic (b : box) : Prop :=
    match b with Box _ _ _ _ | Word _ _ _ | Frame _ _ _ _ _ | DagFrame _ _ _ _ _ => True | _ => False end.
  Lemma basic_unwind b : basic b -> basic (b_unwind b) /\ b_z (b_unwind b) = 0%Z.
  Proof. destruct b; cbn; try tauto; intros _; split; auto; lia. Qed.
  Lemma F_box_basic b : basic b -> F_box b = F_check (b_dom b) (b_cod b) (F_basic custom_ob custom_ar b).
  Proof. destruct b; cbn; try tauto; reflexivity. Qed.
  Lemma F_box_basic0 b : basic b -> b_z b = 0%Z -> F_box b = F_check (b_dom b) (b_cod b) (custom_ar b).
  Proof. intros H Hz. rewrite F_box_basic by auto. unfold F_basic. now rewrite Hz. Qed.
  Lemma asound_basic b : basic b -> asound (ar_basic custom_ob custom_ar b) (F_basic custom_ob custom_ar b).
  Proof.
    intro H. unfold ar_basic, F_basic. destruct (b_z b =? 0)%Z; [apply asound_of, osound_lift|].
    destruct (basic_unwind H) as [H1 H2]. apply asound_map, asound_unwind; auto.
    intros x ->. now apply F_box_basic0.
  Qed.
  Lemma asound_ob t : asound (ob_with_cache custom_ob t) (F_ty t).
  Proof. apply asound_of, osound_ob. Qed.
  Lemma asound_ret A (r : res A) : asound (lift r) r.
  Proof. apply asound_of, osound_lift. Qed.
  Lemma asound_box b : asound (ar_box custom_ob custom_ar b) (F_box b).
  Proof.
    induction b; cbn [ar_box FunctorModel.F_box]; (apply asound_cached; [reflexivity|]);
      try (apply asound_basic; exact I);
      try (apply asound_bind; [apply asound_ob|intro]);
      try (apply asound_bind; [apply asound_ob|intro]); try apply asound_ret.
    now apply asound_map.
  Qed.
  Lemma F_diag_id t : F_diag (id t) = rmap id (F_ty t).
  Proof.
    unfold FunctorModel.F_diag, f_check. cbn. destruct (F_ty t) as [u|]; cbn; auto.
    now rewrite ty_eqb_refl.
  Qed.
  Lemma asound_id t : asound (ar_id custom_ob t) (F_diag (id t)).
  Proof. apply asound_cached; [reflexivity|]. apply asound_map, asound_ob. Qed.
  Lemma asound_step acc x : asound (ar_step custom_ob custom_ar acc x) (F_step custom_ob custom_ar acc x).
  Proof.
    destruct x as [[l b] r]. cbn [ar_step F_step].
    eapply asound_eq; cycle 1.
    - apply asound_bind; [apply asound_id|]. intro fl. apply asound_bind; [apply asound_box|]. intro fb.
      apply asound_bind; [apply asound_id|]. intro fr. apply asound_ret.
    - rewrite !F_diag_id. destruct (F_ty l), (F_box b), (F_ty r); reflexivity.
  Qed.
  Lemma asound_diag d : asound (ar_diag custom_ob custom_ar d) (F_diag d).
  Proof.
    unfold ar_diag, FunctorModel.F_diag. apply asound_cached; [reflexivity|].
    destruct (layers d) as [|x ls]; [apply asound_map, asound_ob|].
    eapply asound_eq; cycle 1.
    - apply asound_bind; [apply asound_id|]. intro i. apply asound_foldM. apply asound_step.
    - rewrite F_diag_id. now destruct (F_ty (dom d)).
  Qed.

  Definition F_entity (e : entity) : res image :=
    match e with
    | ETy t => rmap ITy (F_ty t)
    | EArrow (AB b) => rmap IDiag (F_box b)
    | EArrow (AD d) => rmap IDiag (F_diag d)
    end.
  Lemma asound_call e : asound (call custom_ob custom_ar e) (F_entity e).
  Proof.
    destruct e as [t|[b|d]]; apply asound_map; [apply asound_ob|apply asound_box|apply asound_diag].
  Qed.
  Lemma empty_inv : oinv empty_caches /\ ainv empty_caches.
  Proof. split; intros ? ?; cbn; congruence. Qed.
  Lemma fresh_call e : fst (call custom_ob custom_ar e empty_caches) = F_entity e.
  Proof. destruct empty_inv as [H1 H2]. apply (asound_call e H1 H2). Qed.

  Lemma calls_inv h : forall s, oinv s -> ainv s -> Forall (fun r => keep r) (fst (calls custom_ob custom_ar h s)) ->
    fst (calls custom_ob custom_ar h s) = map F_entity h /\
    oinv (snd (calls custom_ob custom_ar h s)) /\ ainv (snd (calls custom_ob custom_ar h s)).
  Proof.
    induction h as [|e h IH]; intros s Ho Ha; cbn [calls]; auto.
    destruct (asound_call e Ho Ha) as (E1 & E2 & E3).
    destruct (call custom_ob custom_ar e s) as [r s1]. cbn in E1, E2, E3. intro H.
    destruct (calls custom_ob custom_ar h s1) as [rs s2] eqn:E. cbn in *.
    inversion H; subst. specialize (IH s1 E2 (E3 ltac:(assumption))). rewrite E in IH. cbn in IH.
    destruct IH as (I1 & I2 & I3); auto. repeat split; auto. now rewrite I1.
  Qed.

  Lemma history_independent h e :
    Forall (fun r => keep r) (fst (calls custom_ob custom_ar h empty_caches)) ->
    fst (call custom_ob custom_ar e (snd (calls custom_ob custom_ar h empty_caches)))
    = fst (call custom_ob custom_ar e empty_caches).
  Proof.
    intro H. destruct empty_inv as [H1 H2]. destruct (calls_inv H1 H2 H) as (_ & I2 & I3).
    rewrite fresh_call. apply (asound_call e I2 I3).
  Qed.
End Cache.
