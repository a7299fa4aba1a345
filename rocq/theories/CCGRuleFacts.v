(** Proofs about CCGRule.apply / infer_rule / resolve. *)
From Verif Require Import PyBase PyFacts TyModel TyFacts DiagModel DiagSpec DiagFacts DiagCups DiagKinds
  CCGModel CCGSpec CCGTypeFacts.
Set Implicit Arguments.
Unset Strict Implicit.

(** the rules of the [instance] schemata *)
Lemma rot1_app s t : rot 1 (s ++ t) = rot 1 t ++ rot 1 s.
Proof. apply (rot_app 1). Qed.
Lemma rotm1_app s t : rot (-1) (s ++ t) = rot (-1) t ++ rot (-1) s.
Proof. apply (rot_app (-1)). Qed.
Lemma all_over_l ctx : all_over ctx -> lctx ctx = [].
Proof. intro H. induction H as [|(d, y) ctx E H IH]; auto. cbn in E. subst d. exact IH. Qed.
Lemma all_under_r ctx : all_under ctx -> rctx ctx = [].
Proof. intro H. induction H as [|(d, y) ctx E H IH]; auto. cbn in E. subst d. exact IH. Qed.

Lemma slice_from A (a b : list A) : py_slice (a ++ b) (Some (Z.of_nat (List.length a))) None = b.
Proof. rewrite py_slice_start_pos by lia. now rewrite Nat2Z.id, skipn_app, skipn_all, Nat.sub_diag. Qed.
Lemma slice_upto A (a b : list A) : b <> [] -> py_slice (a ++ b) None (Some (- Z.of_nat (List.length b))%Z) = a.
Proof.
  intro H. assert (0 < List.length b) by (destruct b; cbn; [congruence|lia]).
  rewrite py_slice_stop, adj_neg by lia. rewrite app_length, Z.opp_involutive, Nat2Z.id.
  replace (_ + _ - _) with (List.length a) by lia. now rewrite firstn_app, firstn_all, Nat.sub_diag, app_nil_r.
Qed.

Lemma tk_eq P d s t s' t' : tk P d s t -> s = s' -> t = t' -> tk P d s' t'.
Proof. now intros H -> ->. Qed.

Lemma gfx_typed mid join l r : exists d,
  (do s <- swap (mid ++ ty_l join) l;
   do k <- cups (ty_l join) join false;
   do body <- d_then (tensor s (id join)) (tensor (id (l ++ mid)) k);
   Ok (tensor body (id r))) = Ok d /\
  tk is_structural d (mid ++ ty_l join ++ l ++ join ++ r) (l ++ mid ++ r).
Proof.
  destruct (tk_swap (mid ++ ty_l join) l) as (s & -> & Ts). destruct (tk_cups join) as (k & Ek & Tk).
  change (rot (-1) join) with (ty_l join) in *. rewrite Ek. cbn [bind].
  apply (tk_mono swap_structural) in Ts. apply (tk_mono cupcap_structural) in Tk.
  pose proof (tk_tensor Ts (tk_id _ join)) as H1. pose proof (tk_tensor (tk_id is_structural (l ++ mid)) Tk) as H2.
  eapply tk_eq in H1; [|reflexivity|symmetry]. 2: instantiate (1 := (l ++ mid) ++ ty_l join ++ join); now rewrite <- !app_assoc.
  destruct (tk_then H1 H2) as (b & -> & Tb). cbn [bind]. eexists. split; [reflexivity|].
  eapply tk_eq; [exact (tk_tensor Tb (tk_id _ r))|..]; now rewrite ?app_nil_r, <- ?app_assoc.
Qed.
Lemma gbx_typed mid join l r : exists d,
  (do s <- swap r (ty_r join ++ mid);
   do k <- cups join (ty_r join) false;
   do body <- d_then (tensor (id join) s) (tensor k (id (mid ++ r)));
   Ok (tensor (id l) body)) = Ok d /\
  tk is_structural d (l ++ join ++ r ++ ty_r join ++ mid) (l ++ mid ++ r).
Proof.
  destruct (tk_swap r (ty_r join ++ mid)) as (s & -> & Ts). destruct (tk_cups_l join) as (k & Ek & Tk).
  change (rot 1 join) with (ty_r join) in *. rewrite Ek. cbn [bind].
  apply (tk_mono swap_structural) in Ts. apply (tk_mono cupcap_structural) in Tk.
  pose proof (tk_tensor (tk_id _ join) Ts) as H1. pose proof (tk_tensor Tk (tk_id is_structural (mid ++ r))) as H2.
  eapply tk_eq in H1; [|reflexivity|symmetry]. 2: instantiate (1 := (join ++ ty_r join) ++ mid ++ r); now rewrite <- !app_assoc.
  destruct (tk_then H1 H2) as (b & -> & Tb). cbn [bind]. eexists. split; [reflexivity|].
  eapply tk_eq; [exact (tk_tensor (tk_id _ l) Tb)|..]; now rewrite ?app_nil_r, <- ?app_assoc.
Qed.

Lemma apply_instance ru dm cd : instance ru dm cd -> Forall proper dm ->
  exists d, apply_rule ru dm (Some cd) = Ok d /\
    tk is_structural d (dom_type dm) (to_grammar cd) /\
    (crossed ru = false -> kinds is_cupcap d).
Proof.
  assert (CC : forall d s t, tk is_cupcap d s t -> tk is_structural d s t /\ (crossed FA = false -> kinds is_cupcap d)).
  { intros d s t T. split; [now apply (tk_mono cupcap_structural)|intros _; apply T]. }
  unfold dom_type. intros I Pr. destruct I; cbn [map List.concat apply_rule c_result c_argument c_left c_right bind].
  - destruct (tk_fa (to_grammar X) (to_grammar Y)) as (d & -> & T). exists d. split; auto. apply CC.
    eapply tk_eq; [exact T| |reflexivity]. cbn [to_grammar]. unfold ty_l. now rewrite app_nil_r, <- app_assoc.
  - destruct (tk_ba (to_grammar Y) (to_grammar X)) as (d & -> & T). exists d. split; auto. apply CC.
    eapply tk_eq; [exact T| |reflexivity]. cbn [to_grammar]. unfold ty_r. now rewrite app_nil_r.
  - destruct (tk_fc (to_grammar X) (to_grammar Y) (to_grammar Z)) as (d & -> & T). exists d. split; auto. apply CC.
    eapply tk_eq; [exact T| |reflexivity]. cbn [to_grammar]. unfold ty_l. now rewrite app_nil_r, <- app_assoc.
  - destruct (tk_bc (to_grammar Z) (to_grammar Y) (to_grammar X)) as (d & -> & T). exists d. split; auto. apply CC.
    eapply tk_eq; [exact T| |reflexivity]. cbn [to_grammar]. unfold ty_r. now rewrite app_nil_r, <- app_assoc.
  - destruct (tk_fx (to_grammar X) (to_grammar Y) (to_grammar Z)) as (d & -> & T). exists d. split; auto.
    split; [|discriminate].
    eapply tk_eq; [exact T| |reflexivity]. cbn [to_grammar]. unfold ty_r, ty_l. now rewrite app_nil_r, <- app_assoc.
  - destruct (tk_bx (to_grammar Z) (to_grammar Y) (to_grammar X)) as (d & -> & T). exists d. split; auto.
    split; [|discriminate].
    eapply tk_eq; [exact T| |reflexivity]. cbn [to_grammar]. unfold ty_r, ty_l. now rewrite app_nil_r, <- app_assoc.
  - destruct (tk_cups (to_grammar Y)) as (k & E & T). unfold ty_l. rewrite E. cbn [bind]. eexists. split; [reflexivity|].
    apply CC. rewrite !to_grammar_fill, (all_over_l H0). cbn [app]. rewrite slice_from.
    eapply tk_eq; [exact (tk_tensor (tk_tensor (tk_id _ (to_grammar X)) T) (tk_id _ (rctx ctx)))|..];
      cbn [to_grammar]; unfold ty_l; now rewrite ?app_nil_r, <- ?app_assoc.
  - destruct (tk_cups_l (to_grammar Y)) as (k & E & T). unfold ty_r. rewrite E. cbn [bind]. eexists. split; [reflexivity|].
    apply CC. rewrite !to_grammar_fill, (all_under_r H0), !app_nil_r.
    rewrite slice_upto by (apply to_grammar_nonempty; apply Forall_inv in Pr; now apply proper_fill in Pr).
    eapply tk_eq; [exact (tk_tensor (tk_tensor (tk_id _ (lctx ctx)) T) (tk_id _ (to_grammar X)))|..];
      cbn [to_grammar]; unfold ty_r; now rewrite ?app_nil_r, <- ?app_assoc.
  - unfold split. rewrite split_fill. cbn [bind app]. rewrite app_nil_r.
    set (ctx := pre ++ _). destruct (gfx_typed (to_grammar X) (to_grammar Y) (lctx ctx) (rctx ctx)) as (d & E & T).
    exists d. split; [exact E|]. split; [|discriminate]. rewrite !to_grammar_fill.
    eapply tk_eq; [exact T| |reflexivity]. cbn [to_grammar]. now rewrite app_nil_r, <- app_assoc.
  - unfold split. rewrite split_fill. cbn [bind app]. rewrite app_nil_r.
    set (ctx := pre ++ _). destruct (gbx_typed (to_grammar X) (to_grammar Y) (lctx ctx) (rctx ctx)) as (d & E & T).
    exists d. split; [exact E|]. split; [|discriminate]. rewrite !to_grammar_fill.
    eapply tk_eq; [exact T| |reflexivity]. cbn [to_grammar]. now rewrite app_nil_r, <- !app_assoc.
  - destruct (tk_caps_l (to_grammar T)) as (k & E & Tk). unfold ty_l at 1. rewrite E. cbn [bind]. eexists. split; [reflexivity|].
    apply CC. eapply tk_eq; [exact (tk_tensor Tk (tk_id _ (to_grammar X)))|..]; cbn [to_grammar]; unfold ty_l, ty_r.
    + now rewrite app_nil_r.
    + now rewrite rotm1_app, rot_rl, <- app_assoc.
  - destruct (tk_caps (to_grammar T)) as (k & E & Tk). unfold ty_r at 1. rewrite E. cbn [bind]. eexists. split; [reflexivity|].
    apply CC. eapply tk_eq; [exact (tk_tensor (tk_id _ (to_grammar X)) Tk)|..]; cbn [to_grammar]; unfold ty_l, ty_r.
    + reflexivity.
    + now rewrite rot1_app, rot_lr, <- app_assoc.
Qed.

(** ** infer_rule *)
Lemma allows_char d d' : allows (dir_char d) d' -> d' = d.
Proof. intros [E|E]; destruct d, d'; cbn in E; congruence. Qed.
Lemma allows_bar d : allows "|" d.
Proof. now left. Qed.
Lemma admissible_all d ctx : admissible (dir_char d) (dir_char d) ctx <-> ctx <> [] /\ Forall (fun p => fst p = d) ctx.
Proof.
  split.
  - intros (pre & d' & y & -> & A & F). split; [now destruct pre|]. apply Forall_app. split.
    + eapply Forall_impl; [|exact F]. intros p. apply allows_char.
    + apply allows_char in A. auto.
  - intros (Hne & F). destruct (exists_last Hne) as (pre & (d', y) & ->). apply Forall_app in F as (F & F').
    apply Forall_inv in F'. cbn in F'. subst d'. exists pre, d, y. split; auto. split; [now right|].
    eapply Forall_impl; [|exact F]. intros p <-. now right.
Qed.
Lemma admissible_first d ctx : admissible (dir_char d) "|" ctx <-> exists pre y, ctx = pre ++ [(d, y)].
Proof.
  split.
  - intros (pre & d' & y & -> & A & _). apply allows_char in A as ->. eauto.
  - intros (pre & y & ->). exists pre, d, y. split; auto. split; [now right|].
    apply Forall_forall. intros p _. apply allows_bar.
Qed.

Lemma rr_is_inv o r s t cd c0 c1 : direction_ends s = Some (c0, c1) -> rr_is o r s t cd o = Ok true ->
  exists ctx, admissible c0 c1 ctx /\ t = fill ctx o /\ cd = fill ctx r.
Proof.
  unfold rr_is, replace_result. intros ->. destruct (replace_result_loop _ _ _ _ _) as [(t', old)|] eqn:E; cbn; [|discriminate].
  intros [= H]. apply andb_true_iff in H as (H1 & H2). apply cty_eqb_iff in H1 as ->.
  destruct old as [x|]; [|discriminate]. apply cty_eqb_iff in H2 as ->.
  apply rr_spec in E. destruct E as (ctx & A & -> & -> & _). eauto.
Qed.
Lemma rr_is_complete o r s c0 c1 ctx : direction_ends s = Some (c0, c1) -> admissible c0 c1 ctx ->
  rr_is o r s (fill ctx o) (fill ctx r) o = Ok true.
Proof.
  intros E A. unfold rr_is, replace_result. rewrite E, (rr_complete o r A). cbn. now rewrite !cty_eqb_refl.
Qed.
Lemma rr_total o r c0 c1 t : proper t -> exists p, replace_result_loop o r c0 c1 t = Ok p.
Proof.
  induction t as [|n|x IHx d y _]; cbn [proper replace_result_loop]; [easy|eauto|].
  intros (Px & _). destruct (IHx Px) as ((nx, ox) & ->).
  destruct (_ || _); cbn [bind]; [destruct (mismatch d c0); eauto|].
  destruct (mismatch d c1); cbn [bind]; [destruct (mismatch d c0); eauto|].
  destruct ox; [eauto|]. destruct (mismatch d c0); eauto.
Qed.
Lemma rr_is_total o r s t cd old c0 c1 : direction_ends s = Some (c0, c1) -> proper t ->
  exists b, rr_is o r s t cd old = Ok b.
Proof.
  intros E P. unfold rr_is, replace_result. rewrite E. destruct (rr_total o r c0 c1 P) as (p & ->). cbn. eauto.
Qed.

Definition ends_over : direction_ends "/" = Some ("/"%char, "/"%char) := eq_refl.
Definition ends_under : direction_ends "\" = Some ("\"%char, "\"%char) := eq_refl.
Definition ends_overx : direction_ends "/|" = Some ("/"%char, "|"%char) := eq_refl.
Definition ends_underx : direction_ends "\|" = Some ("\"%char, "|"%char) := eq_refl.

Ltac eqs := repeat match goal with
  | H : _ && _ = true |- _ => apply andb_true_iff in H as (? & ?)
  | H : cty_eqb ?a ?b = true |- _ => apply cty_eqb_iff in H
  end.

Lemma complex_inv t : c_is_complex t = true -> exists r d a, t = CSlash r d a.
Proof. destruct t; try discriminate. eauto. Qed.

Lemma infer_sound dm cd ru : infer_rule dm cd = Ok ru -> schematic ru = true -> instance ru dm cd.
Proof.
  unfold infer_rule. destruct dm as [|l [|r [|? ?]]]; try (intros [= <-]; discriminate).
  - destruct cd as [| |cr d a]; try (intros [= <-]; discriminate).
    destruct (cty_eqb (CSlash cr d a) (c_over cr (c_under cr l))) eqn:E1; eqs.
    { intros [= <-] _. rewrite E1. constructor. }
    destruct (cty_eqb (CSlash cr d a) (c_under cr (c_over cr l))) eqn:E2; eqs; intros [= <-]; [intros _|discriminate].
    rewrite E2. constructor.
  - destruct (cty_eqb l PUNCTUATION); [destruct (cty_eqb _ _); intros [= <-]; discriminate|].
    destruct (cty_eqb r PUNCTUATION); [destruct (cty_eqb _ _); intros [= <-]; discriminate|].
    destruct (cty_eqb l (c_lshift cd r)) eqn:E1; eqs; [intros [= <-] _; subst; constructor|].
    destruct (cty_eqb r (c_rshift l cd)) eqn:E2; eqs; [intros [= <-] _; subst; constructor|].
    destruct (_ || _); [intros [= <-]; discriminate|].
    destruct (c_is_complex cd && c_is_complex l && c_is_complex r) eqn:C; [|intros [= <-]; discriminate].
    eqs. apply complex_inv in H as (cr & cdr & ca & ->). apply complex_inv in H1 as (l1 & ld & l2 & ->).
    apply complex_inv in H0 as (r1 & rd & r2 & ->). clear E1 E2.
    assert (LL : forall a d b, exists x y, c_left (CSlash a d b) = Ok x /\ c_right (CSlash a d b) = Ok y /\
       ((d = Over /\ x = a /\ y = b) \/ (d = Under /\ x = b /\ y = a))).
    { intros a [] b; cbn; eauto 10. }
    destruct (LL l1 ld l2) as (ll & lr & -> & -> & Hl). destruct (LL r1 rd r2) as (rl & rr & -> & -> & Hr).
    destruct (LL cr cdr ca) as (cl & crr & -> & -> & Hc). cbn [bind]. clear LL. cbv zeta.
    match goal with |- (if ?b then Ok FC else _) = _ -> _ => destruct b eqn:T1 end.
    { intros [= <-] _. eqs. subst.
      destruct ld, rd, cdr; try discriminate.
      destruct Hl as [(_ & -> & ->)|(? & _)], Hr as [(_ & E1 & E2)|(? & _)], Hc as [(_ & E3 & E4)|(? & _)]; try discriminate.
      subst. constructor. }
    match goal with |- (if ?b then Ok BC else _) = _ -> _ => destruct b eqn:T2 end.
    { intros [= <-] _. eqs. subst.
      destruct ld, rd, cdr; try discriminate.
      destruct Hl as [(? & _)|(_ & -> & ->)], Hr as [(? & _)|(_ & E1 & E2)], Hc as [(? & _)|(_ & E3 & E4)]; try discriminate.
      subst. constructor. }
    clear T1 T2. intros E S.
    match type of E with (do back <- ?b; _) = _ =>
      destruct b as [back|] eqn:B; cbn [bind] in E; [|discriminate] end.
    destruct back as [ru'|].
    + injection E as <-. destruct rd; cbn [c_is_under] in B; [discriminate|].
      destruct Hr as [(? & _)|(_ & -> & ->)]; [discriminate|].
      match type of B with (if ?b then Ok (Some BX) else _) = _ => destruct b eqn:T end.
      { injection B as <-. eqs. destruct ld; [|discriminate].
        destruct Hl as [(_ & -> & ->)|(? & _)]; [|discriminate]. subst. rewrite H0. constructor. }
      destruct (rr_is r2 r1 "\" _ _ _) as [[]|] eqn:G; cbn [bind] in B; [|..|discriminate].
      { injection B as <-. destruct (rr_is_inv ends_under G) as (ctx & A & -> & ->).
        change "\"%char with (dir_char Under) in A. apply admissible_all in A as (Hne & A). now constructor. }
      destruct (rr_is r2 r1 "/|" _ _ _) as [[]|] eqn:G2; cbn [bind] in B; [|discriminate..].
      injection B as <-. destruct (rr_is_inv ends_overx G2) as (ctx & A & -> & ->).
      change "/"%char with (dir_char Over) in A. apply admissible_first in A as (pre & y & ->). constructor.
    + clear B. destruct ld; cbn [c_is_over] in E; [|injection E as <-; discriminate].
      destruct Hl as [(_ & -> & ->)|(? & _)]; [|discriminate].
      match type of E with (if ?b then Ok FX else _) = _ => destruct b eqn:T end.
      { injection E as <-. eqs. destruct rd; [discriminate|].
        destruct Hr as [(? & _)|(_ & -> & ->)]; [discriminate|]. subst. rewrite H0. constructor. }
      destruct (rr_is l2 l1 "/" _ _ _) as [[]|] eqn:G; cbn [bind] in E; [|..|discriminate].
      { injection E as <-. destruct (rr_is_inv ends_over G) as (ctx & A & -> & ->).
        change "/"%char with (dir_char Over) in A. apply admissible_all in A as (Hne & A). now constructor. }
      destruct (rr_is l2 l1 "\|" _ _ _) as [[]|] eqn:G2; cbn [bind] in E; [injection E as <-|injection E as <-; discriminate|discriminate].
      destruct (rr_is_inv ends_underx G2) as (ctx & A & -> & ->).
      change "\"%char with (dir_char Under) in A. apply admissible_first in A as (pre & y & ->). constructor.
Qed.

Ltac fillF F := repeat match goal with H : fill _ _ = CSlash _ _ _ |- _ => rewrite H in F; clear H end; congruence.
Ltac ctxcontra := match goal with
  | A : all_over ?ctx, N : ?ctx <> [] |- _ => destruct ctx as [|(?, ?) ?]; [congruence|]; apply Forall_inv in A; cbn in *; congruence
  | A : all_under ?ctx, N : ?ctx <> [] |- _ => destruct ctx as [|(?, ?) ?]; [congruence|]; apply Forall_inv in A; cbn in *; congruence
  end.

(** an instance of a schema is never reported as unknown *)
Lemma infer_complete ru dm cd : instance ru dm cd -> Forall proper dm ->
  exists ru', infer_rule dm cd = Ok ru' /\ ru' <> UNKNOWN.
Proof.
  intros I Pr.
  assert (Cases2 : forall l r, dm = [l; r] -> exists ru', infer_rule dm cd = Ok ru' /\ ru' <> UNKNOWN).
  { intros l r ->. cbn [infer_rule]. apply Forall_cons_iff in Pr as (Pl & Pr). apply Forall_inv in Pr.
    destruct (cty_eqb l PUNCTUATION); [destruct (cty_eqb _ _); eexists; split; eauto; discriminate|].
    destruct (cty_eqb r PUNCTUATION); [destruct (cty_eqb _ _); eexists; split; eauto; discriminate|].
    destruct (cty_eqb l (c_lshift cd r)) eqn:E1; [eexists; split; eauto; discriminate|].
    destruct (cty_eqb r (c_rshift l cd)) eqn:E2; [eexists; split; eauto; discriminate|].
    destruct (_ || _); [eexists; split; eauto; discriminate|].
    apply cty_eqb_false in E1, E2.
    assert (Cx : c_is_complex cd && c_is_complex l && c_is_complex r = true).
    { inversion I; subst; try reflexivity; try (now elim E1); try (now elim E2).
      - destruct ctx as [|(?, ?) ?]; [congruence|reflexivity].
      - destruct ctx as [|(?, ?) ?]; [congruence|reflexivity].
      - destruct pre as [|(?, ?) ?]; reflexivity.
      - destruct pre as [|(?, ?) ?]; reflexivity. }
    rewrite Cx. eqs. apply complex_inv in H as (cr & cdr & ca & ->). apply complex_inv in H1 as (l1 & ld & l2 & ->).
    apply complex_inv in H0 as (r1 & rd & r2 & ->).
    assert (LL : forall a d b, exists x y, c_left (CSlash a d b) = Ok x /\ c_right (CSlash a d b) = Ok y /\
       ((d = Over /\ x = a /\ y = b) \/ (d = Under /\ x = b /\ y = a))).
    { intros a [] b; cbn; eauto 10. }
    destruct (LL l1 ld l2) as (ll & lr & -> & -> & Hl). destruct (LL r1 rd r2) as (rl & rr & -> & -> & Hr).
    destruct (LL cr cdr ca) as (cl & crr & -> & -> & Hc). cbn [bind].
    set (L := CSlash l1 ld l2) in *. set (R := CSlash r1 rd r2) in *. set (C := CSlash cr cdr ca) in *.
    cbv zeta.
    match goal with |- context [if ?b then Ok FC else _] => destruct b eqn:T1; [eexists; split; eauto; discriminate|] end.
    match goal with |- context [if ?b then Ok BC else _] => destruct b eqn:T2; [eexists; split; eauto; discriminate|] end.
    destruct (rr_is_total rl rr C rl ends_under Pl) as (g1 & G1).
    destruct (rr_is_total rl rr C rl ends_overx Pl) as (g2 & G2).
    destruct (rr_is_total lr ll C lr ends_over Pr) as (g3 & G3).
    destruct (rr_is_total lr ll C lr ends_underx Pr) as (g4 & G4).
    rewrite G1, G2, G3, G4. cbn [bind].
    destruct (c_is_under R) eqn:UR.
    - destruct (c_is_over L && cty_eqb ll rl && cty_eqb C (c_lshift rr lr)) eqn:T3; [cbn; eexists; split; eauto; discriminate|].
      destruct g1; [cbn; eexists; split; eauto; discriminate|].
      destruct g2; [cbn; eexists; split; eauto; discriminate|]. cbn [bind].
      destruct (c_is_over L) eqn:OL.
      + match goal with |- context [if ?b then Ok FX else _] => destruct b eqn:T4; [eexists; split; eauto; discriminate|] end.
        destruct g3; [eexists; split; eauto; discriminate|]. destruct g4; [eexists; split; eauto; discriminate|].
        exfalso.
        destruct rd; [discriminate|]. destruct ld; [|discriminate].
        destruct Hl as [(_ & -> & ->)|(? & _)]; [|discriminate].
        destruct Hr as [(? & _)|(_ & -> & ->)]; [discriminate|].
        subst L R C; inversion I; subst; try (now elim E1); try (now elim E2).
        * cbn in T4. now rewrite !cty_eqb_refl in T4.
        * cbn in T3. now rewrite !cty_eqb_refl in T3.
        * ctxcontra.
        * ctxcontra.
        * assert (F : rr_is l2 l1 "\|" (fill (pre ++ [(Under, Z)]) l2) (fill (pre ++ [(Under, Z)]) l1) l2 = Ok true).
          { apply (rr_is_complete _ _ ends_underx). apply (admissible_first Under). eauto. }
          fillF F.
        * assert (F : rr_is r2 r1 "/|" (fill (pre ++ [(Over, Z)]) r2) (fill (pre ++ [(Over, Z)]) r1) r2 = Ok true).
          { apply (rr_is_complete _ _ ends_overx). apply (admissible_first Over). eauto. }
          fillF F.
      + exfalso. destruct rd; [discriminate|]. destruct ld; [discriminate|].
        destruct Hl as [(? & _)|(_ & -> & ->)]; [discriminate|].
        destruct Hr as [(? & _)|(_ & -> & ->)]; [discriminate|].
        subst L R C; inversion I; subst; try (now elim E1); try (now elim E2).
        * destruct Hc as [(? & _)|(_ & -> & ->)]; [discriminate|]. cbn in T2. now rewrite !cty_eqb_refl in T2.
        * assert (F : rr_is r2 r1 "\" (fill ctx r2) (fill ctx r1) r2 = Ok true).
          { apply (rr_is_complete _ _ ends_under). apply (admissible_all Under). auto. }
          fillF F.
        * assert (F : rr_is r2 r1 "/|" (fill (pre ++ [(Over, Z)]) r2) (fill (pre ++ [(Over, Z)]) r1) r2 = Ok true).
          { apply (rr_is_complete _ _ ends_overx). apply (admissible_first Over). eauto. }
          fillF F.
    - cbn [bind]. destruct (c_is_over L) eqn:OL.
      + cbn [andb]. destruct g3; [eexists; split; eauto; discriminate|]. destruct g4; [eexists; split; eauto; discriminate|].
        exfalso. destruct rd; [|discriminate]. destruct ld; [|discriminate].
        destruct Hl as [(_ & -> & ->)|(? & _)]; [|discriminate].
        destruct Hr as [(_ & -> & ->)|(? & _)]; [|discriminate].
        subst L R C; inversion I; subst; try (now elim E1); try (now elim E2).
        * destruct Hc as [(_ & -> & ->)|(? & _)]; [|discriminate]. cbn in T1. now rewrite !cty_eqb_refl in T1.
        * assert (F : rr_is l2 l1 "/" (fill ctx l2) (fill ctx l1) l2 = Ok true).
          { apply (rr_is_complete _ _ ends_over). apply (admissible_all Over). auto. }
          fillF F.
        * assert (F : rr_is l2 l1 "\|" (fill (pre ++ [(Under, Z)]) l2) (fill (pre ++ [(Under, Z)]) l1) l2 = Ok true).
          { apply (rr_is_complete _ _ ends_underx). apply (admissible_first Under). eauto. }
          fillF F.
      + exfalso. destruct rd; [|discriminate]. destruct ld; [discriminate|].
        inversion I. }
  destruct I; try (eapply Cases2; reflexivity).
  - cbn. rewrite !cty_eqb_refl, String.eqb_refl || rewrite !cty_eqb_refl. cbn. eexists; split; eauto; discriminate.
  - cbn. rewrite !cty_eqb_refl. cbn. eexists; split; eauto; discriminate.
Qed.

(** ** resolve *)
Lemma check_match_inv a b u : check_match a b = Ok u -> a = b.
Proof. unfold check_match. destruct (cty_eqb a b) eqn:E; [|discriminate]. intros _. now apply cty_eqb_iff. Qed.
Lemma check_match_refl a : check_match a a = Ok tt.
Proof. unfold check_match. now rewrite cty_eqb_refl. Qed.

Lemma instance_shape ru dm cd : instance ru dm cd -> conclusion_shape ru cd.
Proof. destruct 1; cbn; eauto. Qed.

Lemma resolve_same ru dm cd : instance ru dm cd -> resolve ru dm cd = Ok dm.
Proof.
  intro I. destruct I; cbn [resolve unpack2 bind c_left c_right c_result c_argument]; rewrite ?check_match_refl; cbn [bind]; auto.
  - unfold replace_result. rewrite ends_over. rewrite rr_complete; [reflexivity|]. now apply (admissible_all Over).
  - unfold replace_result. rewrite ends_under. rewrite rr_complete; [reflexivity|]. now apply (admissible_all Under).
  - unfold replace_result. rewrite ends_underx. rewrite rr_complete; [reflexivity|]. apply (admissible_first Under); eauto.
  - unfold replace_result. rewrite ends_overx. rewrite rr_complete; [reflexivity|]. apply (admissible_first Over); eauto.
Qed.

Ltac bb H := match type of H with bind ?e _ = Ok _ =>
  let x := fresh "x" in let E := fresh "E" in destruct e as [x|] eqn:E; cbn [bind] in H; [|discriminate] end.

Lemma rr_resolve o r s c0 c1 cd p nl : direction_ends s = Some (c0, c1) ->
  replace_result o r s cd = Ok p -> assert_some (snd p) = Ok nl ->
  exists ctx, admissible c0 c1 ctx /\ cd = fill ctx nl /\ fst p = fill ctx r.
Proof.
  unfold replace_result. intros ->. destruct p as (t', old). intros E A. apply rr_spec in E.
  cbn in A. destruct old as [x|]; [|discriminate]. injection A as <-.
  destruct E as (ctx & A & -> & -> & _). eauto.
Qed.

Lemma resolve_sound ru dm cd dm' : schematic ru = true -> conclusion_shape ru cd ->
  resolve ru dm cd = Ok dm' -> instance ru dm' cd.
Proof.
  intros S C E. destruct ru; try discriminate; cbn [resolve] in E; try (bb E; destruct x as (l, r)).
  - injection E as <-. constructor.
  - injection E as <-. constructor.
  - do 3 bb E. apply check_match_inv in E3 as <-. destruct C as (a & b & ->). cbn in E. injection E as <-. constructor.
  - do 3 bb E. apply check_match_inv in E3 as <-. destruct C as (a & b & ->). cbn in E. injection E as <-. constructor.
  - do 3 bb E. apply check_match_inv in E3 as <-. destruct C as (a & b & ->). cbn in E. injection E as <-. constructor.
  - do 3 bb E. apply check_match_inv in E3 as <-. destruct C as (a & b & ->). cbn in E. injection E as <-. constructor.
  - do 4 bb E. injection E as <-. destruct (rr_resolve ends_over E3 E4) as (ctx & A & -> & ->).
    apply (admissible_all Over) in A as (? & ?). now constructor.
  - do 4 bb E. injection E as <-. destruct (rr_resolve ends_under E3 E4) as (ctx & A & -> & ->).
    apply (admissible_all Under) in A as (? & ?). now constructor.
  - do 4 bb E. injection E as <-. destruct (rr_resolve ends_underx E3 E4) as (ctx & A & -> & ->).
    apply (admissible_first Under) in A as (pre & y & ->). constructor.
  - do 4 bb E. injection E as <-. destruct (rr_resolve ends_overx E3 E4) as (ctx & A & -> & ->).
    apply (admissible_first Over) in A as (pre & y & ->). constructor.
  - destruct C as (t & x & ->). cbn in E. injection E as <-. constructor.
  - destruct C as (t & x & ->). cbn in E. injection E as <-. constructor.
Qed.

Lemma proper_fill_iff ctx x : proper (fill ctx x) <-> proper x /\ Forall (fun p => proper (snd p)) ctx.
Proof.
  induction ctx as [|(d, y) ctx IH]; cbn; [split; [split; auto|tauto]|]. rewrite IH, Forall_cons_iff. cbn. tauto.
Qed.
Lemma resolve_proper ru dm cd dm' : schematic ru = true ->
  Forall proper dm -> proper cd -> resolve ru dm cd = Ok dm' -> Forall proper dm'.
Proof.
  intros S P C E.
  assert (LL : forall t x, proper t -> (c_left t = Ok x \/ c_right t = Ok x \/ c_result t = Ok x \/ c_argument t = Ok x) -> proper x).
  { intros [| |a [] b] x; cbn; intros Pt [H|[H|[H|H]]]; try discriminate; injection H as <-; tauto. }
  destruct ru; try discriminate; cbn [resolve] in E.
  11, 12: do 2 bb E; injection E as <-; constructor; auto; eapply LL; [|eauto]; eapply LL; [exact C|eauto].
  all: bb E; destruct x as (l, r); destruct dm as [|l0 [|r0 [|? ?]]]; try discriminate; injection E0 as -> ->;
    apply Forall_cons_iff in P as (Pl & P); apply Forall_inv in P.
  1, 2: injection E as <-; repeat (constructor; auto); cbn; auto.
  1, 2, 3, 4: do 5 bb E; injection E as <-; repeat (constructor; cbn); auto; (eapply LL; [|eauto 6]; auto).
  all: do 4 bb E; injection E as <-.
  - destruct (rr_resolve ends_over E2 E3) as (ctx & A & -> & ->). apply proper_fill_iff in C as (C1 & C2).
    assert (proper x0) by (eapply LL; [exact Pl|eauto]).
    repeat constructor; cbn; auto. apply proper_fill_iff. auto.
  - destruct (rr_resolve ends_under E2 E3) as (ctx & A & -> & ->). apply proper_fill_iff in C as (C1 & C2).
    assert (proper x) by (eapply LL; [exact P|eauto]).
    repeat constructor; cbn; auto. apply proper_fill_iff. auto.
  - destruct (rr_resolve ends_underx E2 E3) as (ctx & A & -> & ->). apply proper_fill_iff in C as (C1 & C2).
    assert (proper x0) by (eapply LL; [exact Pl|eauto]).
    repeat constructor; cbn; auto. apply proper_fill_iff. auto.
  - destruct (rr_resolve ends_overx E2 E3) as (ctx & A & -> & ->). apply proper_fill_iff in C as (C1 & C2).
    assert (proper x) by (eapply LL; [exact P|eauto]).
    repeat constructor; cbn; auto. apply proper_fill_iff. auto.
Qed.
