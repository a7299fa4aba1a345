(** A rewriter whose rules grow: when the functor's caches stay right (proofs only). *)
From Verif Require Import PyBase PyFacts TyModel TyFacts DiagModel DiagSpec DiagFacts BoxEq
  FunctorModel FunctorSpec FunctorCache FunctorFacts RewModel RewSpec RewFacts.
Set Implicit Arguments. Unset Strict Implicit.

Definition arrow_basics (k : arrow) : list box := match k with AB b => basics b | AD d => seen_boxes d end.

Section Keys.
  Variable custom_ob : string -> res ty.
  Variable custom_ar : box -> res diagram.
  Variable P : box -> Prop.
  Definition kinv (s : caches) : Prop := forall k v, lookup arrow_eqb k (ar_cache s) = Some v -> forall b, In b (arrow_basics k) -> P b.
  Definition kframe A (m : M A) : Prop := forall s, kinv s -> kinv (snd (m s)).
  Lemma kf_lift A (r : res A) : kframe (lift r).
  Proof. intros s H. exact H. Qed.
  Lemma kf_bind A B (m : M A) (f : A -> M B) : kframe m -> (forall a, kframe (f a)) -> kframe (mbind m f).
  Proof.
    intros Hm Hf s H. unfold mbind. specialize (Hm s H). destruct (m s) as [[a|e] s1]; cbn in *; auto. now apply Hf.
  Qed.
  Lemma kf_map A B (f : A -> B) m : kframe m -> kframe (mmap f m).
  Proof. intro H. apply kf_bind; auto. intro. apply kf_lift. Qed.
  Lemma kf_mapM A B (f : A -> M B) l : (forall a, kframe (f a)) -> kframe (mmapM f l).
  Proof.
    intro H. induction l; cbn [mmapM]; [apply kf_lift|]. apply kf_bind; auto. intro. apply kf_bind; auto. intro. apply kf_lift.
  Qed.
  Lemma kf_cached_ob t m : kframe m -> kframe (cached_ob t m).
  Proof.
    intros Hm s H. unfold cached_ob. destruct (lookup ty_eqb t (ob_cache s)); cbn; auto.
    specialize (Hm s H). destruct (m s) as [[a|e] s1]; cbn in *; auto.
  Qed.
  Lemma kf_atom a : kframe (ob_atom custom_ob a).
  Proof.
    unfold ob_atom, ob_atom0. destruct (_ =? _)%Z; [apply kf_cached_ob, kf_lift|]. apply kf_cached_ob, kf_map, kf_cached_ob, kf_lift.
  Qed.
  Lemma kf_ob t : kframe (ob_with_cache custom_ob t).
  Proof.
    destruct t as [|a [|b t]]; cbn [ob_with_cache]; [apply kf_cached_ob, kf_lift|apply kf_atom|].
    apply kf_cached_ob, kf_map, kf_mapM. intro. apply kf_atom.
  Qed.
  Lemma kf_cached k d c m : (forall b, In b (arrow_basics k) -> P b) -> kframe m -> kframe (cached_ar custom_ob k d c m).
  Proof.
    intros Hk Hm s H. unfold cached_ar. destruct (lookup arrow_eqb k (ar_cache s)); cbn; auto.
    specialize (Hm s H). destruct (m s) as [[ret|e] s1]; cbn [snd] in *; auto.
    set (s2 := Caches _ _). assert (K2 : kinv s2).
    { intros k' v. cbn. destruct (arrow_eqb k' k) eqn:E; [|apply Hm]. apply arrow_eqb_iff in E. subst. auto. }
    revert K2. generalize s2. clear -Hk. intros s2. 
    apply (kf_bind (m := ob_with_cache custom_ob c)); [apply kf_ob|]. intro. apply kf_bind; [apply kf_ob|]. intro. apply kf_lift.
  Qed.
  Lemma kf_box b : (forall y, In y (basics b) -> P y) -> kframe (ar_box custom_ob custom_ar b).
  Proof.
    assert (Hb : forall b, basic b -> (forall y, In y (basics b) -> P y) -> kframe (ar_basic custom_ob custom_ar b)).
    { intros x B H. rewrite basics_basic in H by auto. unfold ar_basic. destruct (_ =? _)%Z; [apply kf_lift|].
      apply kf_map, kf_cached; [|apply kf_lift]. cbn [arrow_basics]. destruct (basic_unwind custom_ar B) as [B1 B2].
      rewrite basics_basic, B2 by auto. exact H. }
    induction b; intro H; cbn [ar_box]; (apply kf_cached; [exact H|]);
      try (apply Hb; [exact I|exact H]);
      try (apply kf_bind; [apply kf_ob|intro]); try (apply kf_bind; [apply kf_ob|intro]); try apply kf_lift.
    apply kf_map. now apply IHb.
  Qed.
  Lemma kf_id t : kframe (ar_id custom_ob t).
  Proof. apply kf_cached; [cbn; tauto|]. apply kf_map, kf_ob. Qed.
  Lemma kf_diag d : (forall y, In y (seen_boxes d) -> P y) -> kframe (ar_diag custom_ob custom_ar d).
  Proof.
    intro H. unfold ar_diag. apply kf_cached; [exact H|]. unfold seen_boxes in H. 
    assert (G : kframe (mbind (ar_id custom_ob (dom d)) (fun i => mfoldM (ar_step custom_ob custom_ar) (layers d) i))).
    { apply kf_bind; [apply kf_id|]. revert H. generalize (layers d). intros ls H. 
      induction ls as [|x ls IH]; intro i; cbn [mfoldM]; [apply kf_lift|]. apply kf_bind.
      - destruct x as [[l b] r]. cbn [ar_step]. apply kf_bind; [apply kf_id|]. intro. apply kf_bind.
        + apply kf_box. intros y Hy. apply H. cbn. apply in_or_app. auto.
        + intro. apply kf_bind; [apply kf_id|]. intro. apply kf_lift.
      - apply IH. intros y Hy. apply H. cbn. apply in_or_app. auto. }
    destruct (layers d); [apply kf_map, kf_ob|exact G].
  Qed.
End Keys.

(** two callbacks that agree on the boxes of an arrow give it the same image *)
Section Agree.
  Variable custom_ob : string -> res ty.
  Variables ar1 ar2 : box -> res diagram.
  Lemma agree_box b : (forall y, In y (basics b) -> ar1 y = ar2 y) -> F_box custom_ob ar1 b = F_box custom_ob ar2 b.
  Proof.
    assert (Hb : forall b, basic b -> (forall y, In y (basics b) -> ar1 y = ar2 y) -> F_box custom_ob ar1 b = F_box custom_ob ar2 b).
    { intros x B H. rewrite !F_box_basic by auto. rewrite basics_basic in H by auto. f_equal. unfold F_basic.
      destruct (_ =? _)%Z; rewrite (H _ (or_introl eq_refl)); reflexivity. }
    induction b; intro H; try (apply Hb; [exact I|exact H]); try reflexivity.
    cbn [F_box]. now rewrite (IHb H).
  Qed.
  Lemma agree_diag d : (forall y, In y (seen_boxes d) -> ar1 y = ar2 y) -> F_diag custom_ob ar1 d = F_diag custom_ob ar2 d.
  Proof.
    intro H. unfold F_diag. f_equal. unfold seen_boxes in H.
    assert (G : forall i, foldM (F_step custom_ob ar1) (layers d) i = foldM (F_step custom_ob ar2) (layers d) i).
    { induction (layers d) as [|x ls IH]; intro i; cbn [foldM]; auto.
      replace (F_step custom_ob ar1 i x) with (F_step custom_ob ar2 i x).
      - destruct (F_step custom_ob ar2 i x); cbn; auto. apply IH. intros y Hy. apply H. cbn. apply in_or_app. auto.
      - destruct x as [[l b] r]. cbn [F_step]. rewrite (@agree_box b); auto. intros y Hy. apply H. cbn. apply in_or_app. auto. }
    destruct (layers d); auto. destruct (F_ty custom_ob (dom d)); cbn [bind]; auto.
  Qed.
  Lemma agree_arrow k : (forall y, In y (arrow_basics k) -> ar1 y = ar2 y) -> F_arrow custom_ob ar1 k = F_arrow custom_ob ar2 k.
  Proof. destruct k; [apply agree_box|apply agree_diag]. Qed.
End Agree.

(** ** histories *)
Lemma add_rules_app args : forall rs, exists ns, snd (add_rules args rs) = rs ++ ns.
Proof.
  induction args as [|[r|s] args IH]; intro rs; cbn [add_rules].
  - exists []. now rewrite app_nil_r.
  - destruct (IH (rs ++ [r])) as [ns ->]. exists (r :: ns). now rewrite <- app_assoc.
  - destruct (lookup String.eqb s available_rules) as [r|].
    + destruct (IH (rs ++ [r])) as [ns ->]. exists (r :: ns). now rewrite <- app_assoc.
    + exists []. now rewrite app_nil_r.
Qed.
Lemma rw_ar_app rs ns b : (exists r, In r rs /\ rule_matches r b = true) \/
    (forall r, In r (rs ++ ns) -> In r rs \/ rule_matches r b = false) -> rw_ar (rs ++ ns) b = rw_ar rs b.
Proof.
  intros H. destruct (existsb (fun r => rule_matches r b) rs) eqn:E.
  - clear H. induction rs as [|r rs IH]; cbn in *; [congruence|]. destruct (rule_matches r b); auto.
  - assert (N : forall r, In r rs -> rule_matches r b = false).
    { intros r Hr. destruct (rule_matches r b) eqn:Er; auto. assert (existsb (fun r => rule_matches r b) rs = true); [|congruence].
      apply existsb_exists. eauto. }
    destruct H as [(r & Hr & Er)|H]; [rewrite N in Er by auto; congruence|].
    rewrite !rw_ar_none; auto. intros q Hq. destruct (H q Hq); auto.
Qed.

Lemma run_expected h : forall rs seen s,
  oinv id_ob s -> ainv id_ob (rw_ar rs) s -> kinv (fun b => In b seen) s ->
  no_retroactive_rule rs seen h -> Forall (fun r => r <> Err TypeError) (expected rs h) ->
  fst (rw_run h (Rewriter rs s)) = expected rs h.
Proof.
  induction h as [|o h IH]; intros rs seen s Ho Ha Hk Hn Ht; [reflexivity|].
  cbn [rw_run]. destruct o as [args|d].
  - cbn [no_retroactive_rule expected] in *. cbn [rw_step rw_rules rw_caches].
    destruct (add_rules_app args rs) as [ns E].
    destruct (add_rules args rs) as [r rs'] eqn:Er. cbn [snd] in *. subst rs'. destruct Hn as [Hn1 Hn2].
    inversion Ht as [|? ? T1 T2]; subst.
    assert (Ha' : ainv id_ob (rw_ar (rs ++ ns)) s).
    { intros k v Hl. rewrite <- (Ha k v Hl). apply agree_arrow. intros y Hy.
      apply rw_ar_app. apply Hn1. eapply Hk; eauto. }
    specialize (IH (rs ++ ns) seen s Ho Ha' Hk Hn2 T2).
    destruct (rw_run h (Rewriter (rs ++ ns) s)) as [xs w]. cbn [fst] in *. now rewrite IH.
  - cbn [no_retroactive_rule expected] in *. cbn [rw_step]. unfold rw_call. cbn [rw_rules rw_caches].
    inversion Ht as [|? ? T1 T2]; subst.
    destruct (asound_diag (custom_ob := id_ob) (custom_ar := rw_ar rs) d Ho Ha) as (E1 & E2 & E3).
    assert (Hk' : kinv (fun b => In b (seen_boxes d ++ seen)) (snd (ar_diag id_ob (rw_ar rs) d s))).
    { apply kf_diag; [intros; apply in_or_app; auto|]. intros k v L b Hb. apply in_or_app. right. eapply Hk; eauto. }
    destruct (ar_diag id_ob (rw_ar rs) d s) as [r s1]. cbn [fst snd] in *.
    assert (K : keep id_ob r).
    { subst r. unfold rewrite in T1. destruct (F_diag id_ob (rw_ar rs) d) as [|e]; cbn; auto. split; [|congruence].
      intro n. eexists; reflexivity. }
    specialize (IH rs (seen_boxes d ++ seen) s1 E2 (E3 K) Hk' Hn T2).
    destruct (rw_run h (Rewriter rs s1)) as [xs w]. cbn [fst] in *. rewrite IH. now subst r.
Qed.
Lemma history_expected rs h : no_retroactive_rule rs [] h -> Forall (fun r => r <> Err TypeError) (expected rs h) ->
  fst (rw_run h (Rewriter rs empty_caches)) = expected rs h.
Proof.
  intros. destruct (empty_inv id_ob (rw_ar rs)) as [A B].
  assert (K : kinv (fun b => In b []) empty_caches) by (intros k v; cbn; congruence).
  eapply run_expected; eauto.
Qed.
