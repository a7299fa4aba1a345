(** Proofs about CCGTree.to_diagram. *)
From Verif Require Import PyBase PyFacts TyModel TyFacts DiagModel DiagSpec DiagFacts DiagCups DiagKinds
  CCGModel CCGSpec CCGTypeFacts CCGRuleFacts CCGTreeFacts.
Set Implicit Arguments.
Unset Strict Implicit.

Lemma names_tensor a b : word_names (tensor a b) = word_names a ++ word_names b.
Proof. unfold word_names. now rewrite boxes_tensor, flat_map_app. Qed.
Lemma names_id t : word_names (id t) = [].
Proof. reflexivity. Qed.
Lemma names_then a b c : d_then a b = Ok c -> word_names c = word_names a ++ word_names b.
Proof. intro E. unfold word_names. now rewrite (boxes_then E), flat_map_app. Qed.
Lemma names_structural d : kinds is_structural d -> word_names d = [].
Proof.
  unfold kinds, word_names. induction 1 as [|b l H F IH]; cbn; auto. rewrite IH. destruct b; cbn in H; easy.
Qed.
Lemma names_cupcap d : kinds is_cupcap d -> word_names d = [].
Proof. intro K. apply names_structural, (kinds_mono cupcap_structural K). Qed.

Lemma tensor_all_nil : tensor_all [] = id [].
Proof. reflexivity. Qed.
Lemma tensor_all_cons d ds : tensor_all (d :: ds) = tensor d (tensor_all ds).
Proof.
  unfold tensor_all. rewrite !tensor_list_fold. cbn [fold_left]. rewrite tensor_id_l.
  assert (G : forall ds a b, fold_left tensor ds (tensor a b) = tensor a (fold_left tensor ds b)).
  { clear. induction ds as [|c ds IH]; intros a b; cbn; auto. now rewrite <- IH, tensor_assoc_eq. }
  rewrite <- G. now rewrite tensor_id_r.
Qed.

(** what a child contributes *)
Definition pair_ok (P Q : box -> Prop) (c : ctree) (p : diagram * diagram) : Prop :=
  exists W, tk P (fst p) [] W /\ tk Q (snd p) W (to_grammar (t_type c)).

Lemma tensor_pairs P Q cs ch : Forall2 (pair_ok P Q) cs ch ->
  exists W, tk P (tensor_all (map fst ch)) [] W /\
            tk Q (tensor_all (map snd ch)) W (dom_type (map t_type cs)).
Proof.
  intro F. induction F as [|c p cs ch (W & T1 & T2) F (W' & T3 & T4)]; cbn [map].
  - exists []. split; apply tk_id.
  - rewrite !tensor_all_cons. exists (W ++ W'). split; [exact (tk_tensor T1 T3)|exact (tk_tensor T2 T4)].
Qed.
Lemma tensor_names (f : diagram * diagram -> diagram) ch : word_names (tensor_all (map f ch)) = List.concat (map (fun p => word_names (f p)) ch).
Proof. induction ch as [|p ch IH]; cbn [map]; auto. rewrite tensor_all_cons, names_tensor, IH. reflexivity. Qed.

Lemma ready_proper x : ready x -> proper (t_type x).
Proof.
  induction x as [s r t cs IH] using ctree_ind'. intro D. inversion D; subst; cbn [t_type]; auto.
  - inversion IH as [|? ? _ IH1]; subst. inversion IH1; subst. auto.
  - inversion IH; subst. auto.
Qed.
Lemma ready_types_proper cs : Forall ready cs -> Forall proper (map t_type cs).
Proof. intro F. induction F; cbn; constructor; auto. now apply ready_proper. Qed.

Lemma word_tk w t : tk is_word (to_diag (Word w t 0)) [] t.
Proof. eapply tk_eq; [apply tk_to_diag; cbn; auto|reflexivity|reflexivity]. Qed.

(** the branch without crossed rules (and every rule when not planar) *)
Lemma default_ok planar s ru t cs d ch :
  ru <> LEXICAL -> ru <> UNARY -> (planar = true -> crossed ru = false) ->
  apply_rule ru (map t_type cs) (Some t) = Ok d -> mapR (to_diag_pair planar) cs = Ok ch -> ch <> [] ->
  to_diag_pair planar (CT s ru t cs) =
    (do g <- d_then (tensor_all (map snd ch)) d; Ok (tensor_all (map fst ch), g)).
Proof.
  intros NL NU X E M Hne. cbn [to_diag_pair].
  destruct ru; try congruence; rewrite E; cbn [bind]; rewrite M; cbn [bind];
    destruct planar; try (now specialize (X eq_refl)); destruct ch; congruence.
Qed.
Lemma children_ne ru dm cd A (l : list A) : instance ru dm cd -> List.length l = List.length dm -> l <> [].
Proof. intros I L ->. destruct I; discriminate. Qed.
Lemma Forall2_len' A B (R : A -> B -> Prop) l l' : Forall2 R l l' -> List.length l = List.length l'.
Proof. induction 1; cbn; congruence. Qed.

Lemma pairs_false x : ready x -> exists w g, to_diag_pair false x = Ok (w, g) /\
  pair_ok is_word is_structural x (w, g) /\ word_names w = sentence x.
Proof.
  induction x as [s r t cs IH] using ctree_ind'. intro R. inversion R; subst.
  - cbn [to_diag_pair]. rewrite cty_eqb_neq by assumption. do 2 eexists. split; [reflexivity|]. split; [|reflexivity].
    exists (to_grammar t). split; [apply word_tk|apply tk_id].
  - assert (I : instance r (map t_type cs) t) by assumption. assert (Rs : Forall ready cs) by assumption.
    assert (exists ch, mapR (to_diag_pair false) cs = Ok ch /\ Forall2 (pair_ok is_word is_structural) cs ch /\
              map (fun p => word_names (fst p)) ch = map sentence cs) as (ch & M & F & N).
    { clear - IH Rs. induction IH as [|c cs Hc _ IHcs]; [exists []; cbn; auto|]. inversion Rs; subst.
      destruct (Hc H1) as (w & g & E & Pk & N). destruct (IHcs H2) as (ch & M & F & N').
      exists ((w, g) :: ch). split; [|split; [now constructor|]].
      - cbn [mapR]. rewrite E. cbn [bind]. rewrite M. reflexivity.
      - cbn [map fst]. congruence. }
    destruct (apply_instance I (ready_types_proper Rs)) as (d & Ed & Td & _).
    destruct (tensor_pairs F) as (W & TW & TG). destruct (tk_then TG Td) as (g & Eg & Tg).
    assert (Hne : ch <> []).
    { eapply children_ne; [exact I|]. now rewrite map_length, (Forall2_len' F). }
    destruct (instance_not I) as (NL & NLP & NRP & NU & _).
    exists (tensor_all (map fst ch)), g. split; [|split; [exists W; auto|]].
    + assert (X : false = true -> crossed r = false) by discriminate.
      rewrite (default_ok (planar := false) s NL NU X Ed M Hne). now rewrite Eg.
    + rewrite tensor_names, N, sentence_node by auto. reflexivity.
  - inversion IH as [|? ? _ IH1]; subst. inversion IH1 as [|? ? IHx _]; subst.
    assert (Rx : ready x) by assumption. destruct (IHx Rx) as (w & g & E & (W & T1 & T2) & N).
    match goal with P : punct_leaf _ |- _ => destruct P as (sp & ->) end.
    exists w, g. cbn [to_diag_pair apply_rule map t_type bind mapR]. rewrite cty_eqb_refl. cbn [bind]. rewrite E. cbn [bind map fst snd].
    rewrite !tensor_all_cons, tensor_all_nil, !tensor_id_l, !tensor_id_r. cbn [fst snd] in *.
    destruct T2 as ((Wg & Dg & Cg) & Kg). rewrite <- Cg, then_id_r. split; [reflexivity|]. split; [|exact N].
    exists W. split; [exact T1|]. exact (conj (conj Wg (conj Dg Cg)) Kg).
  - inversion IH as [|? ? IHx _]; subst.
    assert (Rx : ready x) by assumption. destruct (IHx Rx) as (w & g & E & (W & T1 & T2) & N).
    match goal with P : punct_leaf _ |- _ => destruct P as (sp & ->) end.
    exists w, g. cbn [to_diag_pair apply_rule map t_type bind mapR]. rewrite E. cbn [bind]. rewrite cty_eqb_refl. cbn [bind map fst snd].
    rewrite !tensor_all_cons, tensor_all_nil, !tensor_id_l, !tensor_id_r. cbn [fst snd] in *.
    destruct T2 as ((Wg & Dg & Cg) & Kg). rewrite <- Cg, then_id_r. split; [reflexivity|]. split; [|exact N].
    exists W. split; [exact T1|]. exact (conj (conj Wg (conj Dg Cg)) Kg).
Qed.

Lemma tree_to_diagram_deriv x : deriv x -> exists d, tree_to_diagram false false x = Ok d /\
  typed d [] (to_grammar (t_type x)) /\ word_names d = sentence x /\
  kinds is_plain_box d.
Proof.
  intro D. unfold tree_to_diagram. cbn [bind].
  destruct (resolved_deriv D) as (y & -> & Ry & Ty & Sy & _). cbn [bind].
  destruct (pairs_false Ry) as (w & g & -> & (W & (Tw & Kw) & (Tg & Kg)) & N). cbn [bind fst snd] in *.
  destruct (typed_then Tw Tg) as (d & E & Td). exists d. rewrite E, <- Ty. split; auto. split; auto. split.
  - rewrite (names_then E), (names_structural Kg), app_nil_r. congruence.
  - unfold kinds. rewrite (boxes_then E). apply Forall_app. split; eapply Forall_impl; try eassumption; intros; [left|right]; auto.
Qed.

(** ** Planar diagrams *)
Lemma word_noswap b : is_word b -> noswap b.
Proof. now left. Qed.
Lemma cupcap_noswap b : is_cupcap b -> noswap b.
Proof. now right. Qed.
Lemma planar_layer ru dm cd d : instance ru dm cd -> crossed ru = false -> Forall proper dm ->
  apply_rule ru dm (Some cd) = Ok d -> tk is_cupcap d (dom_type dm) (to_grammar cd).
Proof.
  intros I C P E. destruct (apply_instance I P) as (d' & E' & (T & _) & K). rewrite E in E'. injection E' as <-.
  split; auto.
Qed.

(** either the composition fails with ValueError or it is typed *)
Lemma then_or P a b r s s' t : tk P a r s -> tk P b s' t ->
  d_then a b = Err ValueError \/ exists c, d_then a b = Ok c /\ tk P c r t.
Proof.
  intros Ta Tb. destruct (d_then a b) as [c|e] eqn:E.
  - right. exists c. split; auto. destruct Ta as ((Wa & Da & Ca) & Ka), Tb as ((Wb & Db & Cb) & Kb). split.
    + pose proof (wf_then Wa Wb E) as Wc. apply d_then_inv in E as (_ & ->). split; auto.
    + unfold kinds. rewrite (boxes_then E). now apply Forall_app.
  - left. rewrite d_then_eq in E. destruct (ty_eqb _ _); congruence.
Qed.

(** the interface of a child in planar mode *)
Definition half_ok (c : ctree) (p : diagram * diagram) : Prop :=
  exists W V, tk noswap (fst p) [] W /\ tk noswap (snd p) V (to_grammar (t_type c)).
Lemma tensor_halves cs ch : Forall2 half_ok cs ch ->
  exists W V, tk noswap (tensor_all (map fst ch)) [] W /\
              tk noswap (tensor_all (map snd ch)) V (dom_type (map t_type cs)).
Proof.
  intro F. induction F as [|c p cs ch (W & V & T1 & T2) F (W' & V' & T3 & T4)]; cbn [map].
  - exists [], []. split; apply tk_id.
  - rewrite !tensor_all_cons. exists (W ++ W'), (V ++ V'). split; [exact (tk_tensor T1 T3)|exact (tk_tensor T2 T4)].
Qed.

Lemma mapR_or A B (f : A -> res B) (R : A -> B -> Prop) l :
  Forall (fun x => f x = Err ValueError \/ exists y, f x = Ok y /\ R x y) l ->
  mapR f l = Err ValueError \/ exists ys, mapR f l = Ok ys /\ Forall2 R l ys.
Proof.
  induction 1 as [|x l [E|(y & E & Ry)] F IH]; cbn [mapR]; [right; exists []; auto|left; now rewrite E|].
  rewrite E. cbn [bind]. destruct IH as [E'|(ys & E' & F')]; rewrite E'; cbn [bind]; [now left|].
  right. exists (y :: ys). auto.
Qed.

Lemma tk_cups' t : exists d, cups (ty_l t) t false = Ok d /\ tk noswap d (ty_l t ++ t) [].
Proof. destruct (tk_cups t) as (d & E & T). exists d. split; auto. now apply (tk_mono cupcap_noswap). Qed.
Lemma tk_cups_l' t : exists d, cups t (ty_r t) false = Ok d /\ tk noswap d (t ++ ty_r t) [].
Proof. destruct (tk_cups_l t) as (d & E & T). exists d. split; auto. now apply (tk_mono cupcap_noswap). Qed.

(** the four planar constructions: [rw >> rg] is plugged into the other diagram *)
Section Planar.
Variable s : option string.
Variables (X Y : cty).

Lemma planar_bx_eq Z lc rc words ld rw rg inner V :
  t_type lc = Y // Z -> t_type rc = X \\ Y ->
  mapR (to_diag_pair true) [lc; rc] = Ok [(words, ld); (rw, rg)] ->
  tk noswap ld V (to_grammar (Y // Z)) -> d_then rw rg = Ok inner -> tk noswap inner [] (to_grammar (X \\ Y)) ->
  exists g, to_diag_pair true (CT s BX (X // Z) [lc; rc]) = Ok (words, g) /\
    tk noswap g V (to_grammar (X // Z)) /\ word_names g = word_names ld ++ word_names inner.
Proof.
  intros El Er M Tl Ei Ti. cbn [to_grammar] in *.
  destruct (tk_bx (to_grammar Z) (to_grammar Y) (to_grammar X)) as (lay & Elay & _).
  destruct (tk_cups_l' (to_grammar Y)) as (k & Ek & Tk).
  pose proof (tk_tensor (tk_tensor (tk_id noswap (to_grammar Y)) Ti) (tk_id noswap (ty_l (to_grammar Z)))) as T1.
  eapply tk_eq in T1; [|cbn [app]; now rewrite app_nil_r|reflexivity].
  destruct (tk_then Tl T1) as (d1 & E1 & T1').
  pose proof (tk_tensor Tk (tk_id noswap (to_grammar X ++ ty_l (to_grammar Z)))) as T2.
  eapply tk_eq in T1'; [|reflexivity|]. 2: { rewrite <- !app_assoc. rewrite (app_assoc (to_grammar Y)). reflexivity. }
  destruct (tk_then T1' T2) as (d2 & E2 & T2').
  exists d2. split; [|split; [exact T2'|]].
  - cbn [to_diag_pair map]. rewrite El, Er. cbn [apply_rule c_left c_right bind]. rewrite Elay. cbn [bind].
    rewrite M. cbn [bind unpack2 fst snd]. rewrite El. cbn [c_left c_right bind].
    rewrite Ei. cbn [bind]. rewrite E1. cbn [bind]. rewrite Ek. cbn [bind]. rewrite E2. reflexivity.
  - rewrite (names_then E2), (names_then E1), !names_tensor, !names_id, !app_nil_r. cbn [app].
    assert (Kk : word_names k = []).
    { destruct (tk_cups_l (to_grammar Y)) as (k' & Ek' & (_ & Kk)). unfold ty_r in Ek. rewrite Ek in Ek'.
      injection Ek' as <-. now apply names_cupcap. }
    now rewrite Kk, app_nil_r.
Qed.

Lemma planar_fx_eq Z lc rc words lw lg rd inner V :
  t_type lc = X // Y -> t_type rc = Y \\ Z ->
  mapR (to_diag_pair true) [lc; rc] = Ok [(lw, lg); (words, rd)] ->
  tk noswap rd V (to_grammar (Y \\ Z)) -> d_then lw lg = Ok inner -> tk noswap inner [] (to_grammar (X // Y)) ->
  exists g, to_diag_pair true (CT s FX (X \\ Z) [lc; rc]) = Ok (words, g) /\
    tk noswap g V (to_grammar (X \\ Z)) /\ word_names g = word_names rd ++ word_names inner.
Proof.
  intros El Er M Tr Ei Ti. cbn [to_grammar] in *.
  destruct (tk_fx (to_grammar X) (to_grammar Y) (to_grammar Z)) as (lay & Elay & _).
  destruct (tk_cups' (to_grammar Y)) as (k & Ek & Tk).
  pose proof (tk_tensor (tk_tensor (tk_id noswap (ty_r (to_grammar Z))) Ti) (tk_id noswap (to_grammar Y))) as T1.
  eapply tk_eq in T1; [|cbn [app]; now rewrite app_nil_r|reflexivity].
  destruct (tk_then Tr T1) as (d1 & E1 & T1').
  pose proof (tk_tensor (tk_id noswap (ty_r (to_grammar Z) ++ to_grammar X)) Tk) as T2.
  eapply tk_eq in T1'; [|reflexivity|]. 2: { rewrite <- !app_assoc. rewrite (app_assoc (ty_r _)). reflexivity. }
  destruct (tk_then T1' T2) as (d2 & E2 & T2').
  exists d2. split; [|split].
  - cbn [to_diag_pair map]. rewrite El, Er. cbn [apply_rule c_left c_right bind]. rewrite Elay. cbn [bind].
    rewrite M. cbn [bind unpack2 fst snd]. rewrite Er. cbn [c_left c_right bind].
    rewrite Ei. cbn [bind]. rewrite E1. cbn [bind]. rewrite Ek. cbn [bind]. rewrite E2. reflexivity.
  - now rewrite app_nil_r in T2'.
  - rewrite (names_then E2), (names_then E1), !names_tensor, !names_id, !app_nil_r. cbn [app].
    assert (Kk : word_names k = []).
    { destruct (tk_cups (to_grammar Y)) as (k' & Ek' & (_ & Kk)). unfold ty_l in Ek. rewrite Ek in Ek'.
      injection Ek' as <-. now apply names_cupcap. }
    now rewrite Kk, app_nil_r.
Qed.

Lemma planar_gbx_eq ctx lc rc words ld rw rg inner :
  t_type lc = fill ctx Y -> t_type rc = X \\ Y ->
  mapR (to_diag_pair true) [lc; rc] = Ok [(words, ld); (rw, rg)] ->
  d_then rw rg = Ok inner -> tk noswap inner [] (to_grammar (X \\ Y)) ->
  exists g, to_diag_pair true (CT s GBX (fill ctx X) [lc; rc]) = Ok (words, g) /\
    tk noswap g (to_grammar (fill ctx Y)) (to_grammar (fill ctx X)) /\ word_names g = word_names inner.
Proof.
  intros El Er M Ei Ti. pose proof Ti as ((_ & _ & Ci) & _).
  destruct (gbx_typed (to_grammar X) (to_grammar Y) (lctx ctx) (rctx ctx)) as (lay & Elay & _).
  destruct (tk_cups_l' (to_grammar Y)) as (k & Ek & Tk).
  assert (Sl : py_slice (cod inner) (Some (Z.of_nat (List.length (to_grammar Y)))) None = to_grammar X).
  { rewrite Ci. cbn [to_grammar]. replace (List.length (to_grammar Y)) with (List.length (ty_r (to_grammar Y)))
      by apply rot_length. apply slice_from. }
  pose proof (tk_tensor (tk_id noswap (to_grammar Y)) Ti) as T1. rewrite app_nil_r in T1. cbn [to_grammar] in T1.
  pose proof (tk_tensor Tk (tk_id noswap (to_grammar X))) as T2. rewrite <- app_assoc in T2. cbn [app] in T2.
  destruct (tk_then T1 T2) as (mid & Em & Tm).
  exists (tensor (tensor (id (lctx ctx)) mid) (id (rctx ctx))). split; [|split].
  - cbn [to_diag_pair map]. rewrite El, Er. cbn [apply_rule c_left c_right bind]. unfold split. rewrite split_fill.
    cbn [bind app]. rewrite app_nil_r. rewrite Elay. cbn [bind].
    rewrite M. cbn [bind unpack2 fst snd]. rewrite El, Er. cbn [c_left c_right bind]. rewrite split_fill.
    cbn [bind app]. rewrite app_nil_r. rewrite Ei. cbn [bind]. rewrite Ek. cbn [bind]. rewrite Sl, Em. reflexivity.
  - rewrite !to_grammar_fill, !app_assoc. exact (tk_tensor (tk_tensor (tk_id _ (lctx ctx)) Tm) (tk_id _ (rctx ctx))).
  - rewrite !names_tensor, !names_id, (names_then Em), !names_tensor, !names_id, !app_nil_r. cbn [app].
    assert (Kk : word_names k = []).
    { destruct (tk_cups_l (to_grammar Y)) as (k' & Ek' & (_ & Kk)). unfold ty_r in Ek. rewrite Ek in Ek'.
      injection Ek' as <-. now apply names_cupcap. }
    now rewrite Kk, app_nil_r.
Qed.

Lemma planar_gfx_eq ctx lc rc words lw lg rd inner : proper Y ->
  t_type lc = X // Y -> t_type rc = fill ctx Y ->
  mapR (to_diag_pair true) [lc; rc] = Ok [(lw, lg); (words, rd)] ->
  d_then lw lg = Ok inner -> tk noswap inner [] (to_grammar (X // Y)) ->
  exists g, to_diag_pair true (CT s GFX (fill ctx X) [lc; rc]) = Ok (words, g) /\
    tk noswap g (to_grammar (fill ctx Y)) (to_grammar (fill ctx X)) /\ word_names g = word_names inner.
Proof.
  intros Py El Er M Ei Ti. pose proof Ti as ((_ & _ & Ci) & _).
  destruct (gfx_typed (to_grammar X) (to_grammar Y) (lctx ctx) (rctx ctx)) as (lay & Elay & _).
  destruct (tk_cups' (to_grammar Y)) as (k & Ek & Tk).
  assert (Sl : py_slice (cod inner) None (Some (- Z.of_nat (List.length (to_grammar Y)))%Z) = to_grammar X).
  { rewrite Ci. cbn [to_grammar]. replace (List.length (to_grammar Y)) with (List.length (ty_l (to_grammar Y)))
      by apply rot_length. apply slice_upto. intro E. apply (f_equal (@List.length atom)) in E.
    unfold ty_l in E. rewrite rot_length in E. apply (to_grammar_nonempty Py). now destruct (to_grammar Y). }
  pose proof (tk_tensor Ti (tk_id noswap (to_grammar Y))) as T1. cbn [to_grammar app] in T1. rewrite <- app_assoc in T1.
  pose proof (tk_tensor (tk_id noswap (to_grammar X)) Tk) as T2. rewrite app_nil_r in T2.
  destruct (tk_then T1 T2) as (mid & Em & Tm).
  exists (tensor (tensor (id (lctx ctx)) mid) (id (rctx ctx))). split; [|split].
  - cbn [to_diag_pair map]. rewrite El, Er. cbn [apply_rule c_left c_right bind]. unfold split. rewrite split_fill.
    cbn [bind app]. rewrite app_nil_r. rewrite Elay. cbn [bind].
    rewrite M. cbn [bind unpack2 fst snd]. rewrite El, Er. cbn [c_left c_right bind]. rewrite split_fill.
    cbn [bind app]. rewrite app_nil_r. rewrite Ei. cbn [bind]. rewrite Ek. cbn [bind]. rewrite Sl, Em. reflexivity.
  - rewrite !to_grammar_fill, !app_assoc. exact (tk_tensor (tk_tensor (tk_id _ (lctx ctx)) Tm) (tk_id _ (rctx ctx))).
  - rewrite !names_tensor, !names_id, (names_then Em), !names_tensor, !names_id, !app_nil_r. cbn [app].
    assert (Kk : word_names k = []).
    { destruct (tk_cups (to_grammar Y)) as (k' & Ek' & (_ & Kk)). unfold ty_l in Ek. rewrite Ek in Ek'.
      injection Ek' as <-. now apply names_cupcap. }
    now rewrite Kk, app_nil_r.
Qed.
End Planar.

(** the error of a plugged-in child is the error of the node *)
Lemma planar_err s ru t lc rc lw lg rw rg : Forall proper [t_type lc; t_type rc] ->
  (match ru with BX | GBX => d_then rw rg | FX | GFX => d_then lw lg | _ => Ok (id []) end) = Err ValueError ->
  instance ru [t_type lc; t_type rc] t ->
  mapR (to_diag_pair true) [lc; rc] = Ok [(lw, lg); (rw, rg)] ->
  to_diag_pair true (CT s ru t [lc; rc]) = Err ValueError.
Proof.
  intros Pr E I M. destruct (apply_instance I Pr) as (d & A & _).
  remember (t_type lc) as tl eqn:El. remember (t_type rc) as tr eqn:Er.
  destruct ru; try discriminate; cbn [to_diag_pair map]; rewrite <- El, <- Er, A; cbn [bind]; rewrite M; cbn [bind unpack2 fst snd];
    rewrite <- ?El, <- ?Er.
  - inversion I; subst tl tr t. cbn [c_left c_right bind]. rewrite E. reflexivity.
  - inversion I; subst tl tr t. cbn [c_left c_right bind]. rewrite E. reflexivity.
  - inversion I; subst tl tr t. cbn [c_left c_right bind]. unfold split. rewrite split_fill. cbn [bind]. rewrite E. reflexivity.
  - inversion I; subst tl tr t. cbn [c_left c_right bind]. unfold split. rewrite split_fill. cbn [bind]. rewrite E. reflexivity.
Qed.

Lemma dom_type2 a b : dom_type [a; b] = to_grammar a ++ to_grammar b.
Proof. unfold dom_type. cbn. now rewrite app_nil_r. Qed.

(** planar mode either raises ValueError or gives halves with the right interface *)
Lemma pairs_true x : ready x ->
  to_diag_pair true x = Err ValueError \/ exists p, to_diag_pair true x = Ok p /\ half_ok x p.
Proof.
  induction x as [s r t cs IH] using ctree_ind'. intro R. inversion R; subst.
  - right. cbn [to_diag_pair]. rewrite cty_eqb_neq by assumption. eexists. split; [reflexivity|].
    exists (to_grammar t), (to_grammar t). split; [apply (tk_mono word_noswap), word_tk|apply tk_id].
  - assert (I : instance r (map t_type cs) t) by assumption. assert (Rs : Forall ready cs) by assumption.
    pose proof (ready_types_proper Rs) as Pr.
    destruct (apply_instance I Pr) as (d & Ed & Td & Kd).
    assert (F : Forall (fun c => to_diag_pair true c = Err ValueError \/ exists p, to_diag_pair true c = Ok p /\ half_ok c p) cs).
    { clear - IH Rs. induction IH; constructor; inversion Rs; auto. }
    destruct (mapR_or F) as [EM|(ch & M & F2)].
    { left. destruct (instance_not I) as (NL & _ & _ & NU & _).
      cbn [to_diag_pair]. destruct r; try congruence; rewrite Ed; cbn [bind]; rewrite EM; reflexivity. }
    destruct (crossed r) eqn:Cr.
    + (* one child is plugged into the other *)
      assert (exists lc rc, cs = [lc; rc]) as (lc & rc & ->).
      { apply instance_arity in I. rewrite map_length in I. destruct r; try discriminate; destruct cs as [|? [|? [|? ?]]]; try discriminate; eauto. }
      inversion F2 as [|? [lw lg] ? ? (W1 & V1 & Tw1 & Tg1) F3]; subst. inversion F3 as [|? [rw rg] ? ? (W2 & V2 & Tw2 & Tg2) F4]; subst. inversion F4; subst.
      cbn [fst snd map] in *.
      destruct (then_or Tw1 Tg1) as [EL|(li & EL & Tl)]; destruct (then_or Tw2 Tg2) as [ER|(ri & ER & Tr)].
      * destruct r; try discriminate; left; (eapply planar_err; [exact Pr| |exact I|exact M]; assumption).
      * destruct r; try discriminate; try (left; eapply planar_err; [exact Pr| |exact I|exact M]; assumption); right; inversion I; subst.
        -- match goal with A : _ = t_type lc, B : _ = t_type rc |- _ => symmetry in A, B; rewrite B in Tr; rewrite A in Tg1;
             destruct (planar_bx_eq s A B M Tg1 ER Tr) as (g & Eg & Tg & _) end.
           eexists. split; [exact Eg|]. exists W1, V1. auto.
        -- match goal with A : _ = t_type lc, B : _ = t_type rc |- _ => symmetry in A, B; rewrite B in Tr;
             destruct (planar_gbx_eq s A B M ER Tr) as (g & Eg & Tg & _) end.
           eexists. split; [exact Eg|]. do 2 eexists. split; [exact Tw1|exact Tg].
      * destruct r; try discriminate; try (left; eapply planar_err; [exact Pr| |exact I|exact M]; assumption); right; inversion I; subst.
        -- match goal with A : _ = t_type lc, B : _ = t_type rc |- _ => symmetry in A, B; rewrite A in Tl; rewrite B in Tg2;
             destruct (planar_fx_eq s A B M Tg2 EL Tl) as (g & Eg & Tg & _) end.
           eexists. split; [exact Eg|]. exists W2, V2. auto.
        -- assert (Py : proper Y).
           { inversion Pr as [|? ? P1 _]; subst. match goal with A : _ = t_type lc |- _ => rewrite <- A in P1 end. apply P1. }
           match goal with A : _ = t_type lc, B : _ = t_type rc |- _ => symmetry in A, B; rewrite A in Tl;
             destruct (planar_gfx_eq s Py A B M EL Tl) as (g & Eg & Tg & _) end.
           eexists. split; [exact Eg|]. do 2 eexists. split; [exact Tw2|exact Tg].
      * right. destruct r; try discriminate; inversion I; subst.
        -- match goal with A : _ = t_type lc, B : _ = t_type rc |- _ => symmetry in A, B; rewrite A in Tl; rewrite B in Tg2;
             destruct (planar_fx_eq s A B M Tg2 EL Tl) as (g & Eg & Tg & _) end.
           eexists. split; [exact Eg|]. exists W2, V2. auto.
        -- match goal with A : _ = t_type lc, B : _ = t_type rc |- _ => symmetry in A, B; rewrite B in Tr; rewrite A in Tg1;
             destruct (planar_bx_eq s A B M Tg1 ER Tr) as (g & Eg & Tg & _) end.
           eexists. split; [exact Eg|]. exists W1, V1. auto.
        -- assert (Py : proper Y).
           { inversion Pr as [|? ? P1 _]; subst. match goal with A : _ = t_type lc |- _ => rewrite <- A in P1 end. apply P1. }
           match goal with A : _ = t_type lc, B : _ = t_type rc |- _ => symmetry in A, B; rewrite A in Tl;
             destruct (planar_gfx_eq s Py A B M EL Tl) as (g & Eg & Tg & _) end.
           eexists. split; [exact Eg|]. do 2 eexists. split; [exact Tw2|exact Tg].
        -- match goal with A : _ = t_type lc, B : _ = t_type rc |- _ => symmetry in A, B; rewrite B in Tr;
             destruct (planar_gbx_eq s A B M ER Tr) as (g & Eg & Tg & _) end.
           eexists. split; [exact Eg|]. do 2 eexists. split; [exact Tw1|exact Tg].
    + destruct (tensor_halves F2) as (W & V & TW & TV).
      assert (Td' : tk noswap d (dom_type (map t_type cs)) (to_grammar t)).
      { apply (tk_mono cupcap_noswap). split; [apply Td|now apply Kd]. }
      destruct (tk_then TV Td') as (g & Eg & Tg).
      assert (Hne : ch <> []).
      { eapply children_ne; [exact I|]. now rewrite map_length, (Forall2_len' F2). }
      destruct (instance_not I) as (NL & _ & _ & NU & _). right.
      exists (tensor_all (map fst ch), g). split; [|exists W, V; auto].
      rewrite (default_ok (planar := true) s NL NU (fun _ => Cr) Ed M Hne). now rewrite Eg.
  - inversion IH as [|? ? _ IH1]; subst. inversion IH1 as [|? ? IHx _]; subst.
    assert (Rx : ready x) by assumption.
    match goal with P : punct_leaf _ |- _ => destruct P as (sp & ->) end.
    cbn [to_diag_pair apply_rule map t_type bind mapR]. rewrite cty_eqb_refl. cbn [bind].
    destruct (IHx Rx) as [E|((w & g) & E & (W & V & T1 & T2))]; rewrite E; cbn [bind]; [now left|]. right. cbn [map fst snd].
    rewrite !tensor_all_cons, tensor_all_nil, !tensor_id_l, !tensor_id_r. cbn [fst snd] in *.
    destruct T2 as ((Wg & Dg & Cg) & Kg). rewrite <- Cg, then_id_r. cbn [bind]. eexists. split; [reflexivity|].
    exists W, V. split; [exact T1|]. exact (conj (conj Wg (conj Dg Cg)) Kg).
  - inversion IH as [|? ? IHx _]; subst.
    assert (Rx : ready x) by assumption.
    match goal with P : punct_leaf _ |- _ => destruct P as (sp & ->) end.
    cbn [to_diag_pair apply_rule map t_type bind mapR]. rewrite cty_eqb_refl. cbn [bind].
    destruct (IHx Rx) as [E|((w & g) & E & (W & V & T1 & T2))]; rewrite E; cbn [bind]; [now left|]. right. cbn [map fst snd].
    rewrite !tensor_all_cons, tensor_all_nil, !tensor_id_l, !tensor_id_r. cbn [fst snd] in *.
    destruct T2 as ((Wg & Dg & Cg) & Kg). rewrite <- Cg, then_id_r. cbn [bind]. eexists. split; [reflexivity|].
    exists W, V. split; [exact T1|]. exact (conj (conj Wg (conj Dg Cg)) Kg).
Qed.

Lemma planar_deriv x : deriv x -> tree_to_diagram true false x = Err ValueError \/
  exists d, tree_to_diagram true false x = Ok d /\ typed d [] (to_grammar (t_type x)) /\ kinds noswap d.
Proof.
  intro D. unfold tree_to_diagram. cbn [bind].
  destruct (resolved_deriv D) as (y & -> & Ry & Ty & Sy & _). cbn [bind].
  destruct (pairs_true Ry) as [E|((w & g) & E & (W & V & Tw & Tg))]; rewrite E; cbn [bind fst snd] in *; [now left|].
  destruct (then_or Tw Tg) as [E'|(d & E' & (T & K))]; [now left|right]. exists d. rewrite <- Ty. auto.
Qed.

(** ** Planar mode succeeds when only words are opened up *)
Definition whole (c : ctree) (p : diagram * diagram) : Prop :=
  exists W, tk noswap (fst p) [] W /\ tk noswap (snd p) W (to_grammar (t_type c)) /\
    Permutation (word_names (fst p) ++ word_names (snd p)) (sentence c).

Lemma tensor_wholes cs ch : Forall2 whole cs ch ->
  exists W, tk noswap (tensor_all (map fst ch)) [] W /\
            tk noswap (tensor_all (map snd ch)) W (dom_type (map t_type cs)) /\
            Permutation (word_names (tensor_all (map fst ch)) ++ word_names (tensor_all (map snd ch)))
                        (List.concat (map sentence cs)).
Proof.
  intro F. induction F as [|c p cs ch (W & T1 & T2 & N) F (W' & T3 & T4 & N')]; cbn [map].
  - exists []. repeat split; try apply tk_id; auto.
  - rewrite !tensor_all_cons. exists (W ++ W'). split; [exact (tk_tensor T1 T3)|split; [exact (tk_tensor T2 T4)|]].
    cbn [List.concat map]. rewrite !names_tensor, <- N, <- N'.
    rewrite <- !app_assoc. apply Permutation_app_head. rewrite !app_assoc. apply Permutation_app_tail.
    apply Permutation_app_comm.
Qed.
Lemma whole_inner c w g : whole c (w, g) -> exists i, d_then w g = Ok i /\ tk noswap i [] (to_grammar (t_type c)) /\
  Permutation (word_names i) (sentence c).
Proof.
  intros (W & T1 & T2 & N). cbn [fst snd] in *. destruct (tk_then T1 T2) as (i & E & T). exists i. split; auto. split; auto.
  now rewrite (names_then E).
Qed.
Lemma ready_lexical c p : ready c -> t_rule c = LEXICAL -> to_diag_pair true c = Ok p ->
  tk noswap (fst p) [] (to_grammar (t_type c)) /\ word_names (fst p) = sentence c.
Proof.
  intros R E P. inversion R; subst; cbn in E; try discriminate.
  - cbn [to_diag_pair] in P. rewrite cty_eqb_neq in P by assumption. injection P as <-. cbn [fst].
    split; [apply (tk_mono word_noswap), word_tk|reflexivity].
  - subst ru. match goal with I : instance LEXICAL _ _ |- _ => inversion I end.
Qed.

Lemma pairs_planar x : ready x -> gx_leaf x -> exists p, to_diag_pair true x = Ok p /\ whole x p.
Proof.
  induction x as [s r t cs IH] using ctree_ind'. intros R G. inversion R; subst.
  - cbn [to_diag_pair]. rewrite cty_eqb_neq by assumption. eexists. split; [reflexivity|].
    exists (to_grammar t). split; [apply (tk_mono word_noswap), word_tk|split; [apply tk_id|]]. cbn. auto.
  - assert (I : instance r (map t_type cs) t) by assumption. assert (Rs : Forall ready cs) by assumption.
    pose proof (ready_types_proper Rs) as Pr. destruct G as (G1 & G2).
    destruct (apply_instance I Pr) as (d & Ed & Td & Kd).
    assert (exists ch, mapR (to_diag_pair true) cs = Ok ch /\ Forall2 whole cs ch) as (ch & M & F2).
    { clear - IH Rs G2. induction IH as [|c cs Hc _ IHcs]; [exists []; auto|]. inversion Rs; subst. destruct G2 as (Ga & Gb).
      destruct (Hc H1 Ga) as (p & E & Wp). destruct (IHcs Gb H2) as (ch & M & F).
      exists (p :: ch). split; auto. cbn [mapR]. rewrite E. cbn [bind]. rewrite M. reflexivity. }
    destruct (instance_not I) as (NL & NLP & NRP & NU & _).
    destruct (crossed r) eqn:Cr.
    + assert (exists lc rc, cs = [lc; rc]) as (lc & rc & ->).
      { apply instance_arity in I. rewrite map_length in I. destruct r; try discriminate; destruct cs as [|? [|? [|? ?]]]; try discriminate; eauto. }
      inversion F2 as [|? [lw lg] ? ? H1 F3]; subst. inversion F3 as [|? [rw rg] ? ? H3 F4]; subst. inversion F4; subst.
      destruct (whole_inner H1) as (li & EL & Tl & Nl). destruct (whole_inner H3) as (ri & ER & Tr & Nr).
      destruct H1 as (W1 & Tw1 & Tg1 & N1), H3 as (W2 & Tw2 & Tg2 & N2).
      inversion Rs as [|? ? Rl Rs']; subst. inversion Rs' as [|? ? Rr _]; subst.
      assert (Ml : to_diag_pair true lc = Ok (lw, lg) /\ to_diag_pair true rc = Ok (rw, rg)).
      { apply mapR_inv in M. inversion M as [|? ? ? ? ? M']; subst. inversion M'; subst. auto. }
      destruct Ml as (Ml & Mr).
      cbn [fst snd map] in *.
      destruct r; try discriminate; inversion I; subst.
      * match goal with A : _ = t_type lc, B : _ = t_type rc |- _ => symmetry in A, B; rewrite A in Tl; rewrite B in Tg2;
             destruct (planar_fx_eq s A B M Tg2 EL Tl) as (g & Eg & Tg & Ng) end.
        eexists. split; [exact Eg|]. exists W2. cbn [fst snd]. split; auto. split; auto.
        rewrite Ng, app_assoc, sentence_node by discriminate. cbn [map List.concat]. rewrite app_nil_r.
        rewrite N2, Nl. apply Permutation_app_comm.
      * match goal with A : _ = t_type lc, B : _ = t_type rc |- _ => symmetry in A, B; rewrite B in Tr; rewrite A in Tg1;
             destruct (planar_bx_eq s A B M Tg1 ER Tr) as (g & Eg & Tg & Ng) end.
        eexists. split; [exact Eg|]. exists W1. cbn [fst snd]. split; auto. split; auto.
        rewrite Ng, app_assoc, sentence_node by discriminate. cbn [map List.concat]. rewrite app_nil_r.
        now rewrite N1, Nr.
      * assert (Py : proper Y).
        { inversion Pr as [|? ? P1 _]; subst. match goal with A : _ = t_type lc |- _ => rewrite <- A in P1 end. apply P1. }
        assert (Lx : t_rule rc = LEXICAL) by (destruct rc; exact G1).
        destruct (ready_lexical Rr Lx Mr) as (Tw & Nw). cbn [fst] in *.
        match goal with A : _ = t_type lc, B : _ = t_type rc |- _ => symmetry in A, B; rewrite A in Tl; rewrite B in Tw;
             destruct (planar_gfx_eq s Py A B M EL Tl) as (g & Eg & Tg & Ng) end.
        eexists. split; [exact Eg|]. eexists. cbn [fst snd]. split; [exact Tw|]. split; [exact Tg|].
        rewrite Ng, Nw, sentence_node by discriminate. cbn [map List.concat]. rewrite app_nil_r.
        rewrite Nl. apply Permutation_app_comm.
      * assert (Lx : t_rule lc = LEXICAL) by (destruct lc; exact G1).
        destruct (ready_lexical Rl Lx Ml) as (Tw & Nw). cbn [fst] in *.
        match goal with A : _ = t_type lc, B : _ = t_type rc |- _ => symmetry in A, B; rewrite B in Tr; rewrite A in Tw;
             destruct (planar_gbx_eq s A B M ER Tr) as (g & Eg & Tg & Ng) end.
        eexists. split; [exact Eg|]. eexists. cbn [fst snd]. split; [exact Tw|]. split; [exact Tg|].
        rewrite Ng, Nw, sentence_node by discriminate. cbn [map List.concat]. rewrite app_nil_r.
        now rewrite Nr.
    + destruct (tensor_wholes F2) as (W & TW & TV & NV).
      assert (Td' : tk noswap d (dom_type (map t_type cs)) (to_grammar t)).
      { apply (tk_mono cupcap_noswap). split; [apply Td|now apply Kd]. }
      destruct (tk_then TV Td') as (g & Eg & Tg).
      assert (Hne : ch <> []).
      { eapply children_ne; [exact I|]. now rewrite map_length, (Forall2_len' F2). }
      exists (tensor_all (map fst ch), g). split; [|exists W; cbn [fst snd]; split; auto; split; auto].
      * rewrite (default_ok (planar := true) s NL NU (fun _ => Cr) Ed M Hne). now rewrite Eg.
      * rewrite sentence_node by auto. rewrite (names_then Eg).
        rewrite (names_cupcap (d := d)) by (now apply Kd). now rewrite app_nil_r.
  - inversion IH as [|? ? _ IH1]; subst. inversion IH1 as [|? ? IHx _]; subst.
    assert (Rx : ready x) by assumption.
    match goal with P : punct_leaf _ |- _ => destruct P as (sp & ->) end.
    cbn [to_diag_pair apply_rule map t_type bind mapR]. rewrite cty_eqb_refl. cbn [bind].
    assert (Gx : gx_leaf x) by (cbn in G; tauto).
    destruct (IHx Rx Gx) as ((w & g) & E & (W & T1 & T2 & N)); rewrite E; cbn [bind map fst snd].
    rewrite !tensor_all_cons, tensor_all_nil, !tensor_id_l, !tensor_id_r. cbn [fst snd] in *.
    destruct T2 as ((Wg & Dg & Cg) & Kg). rewrite <- Cg, then_id_r. cbn [bind]. eexists. split; [reflexivity|].
    exists W. split; [exact T1|]. split; [exact (conj (conj Wg (conj Dg Cg)) Kg)|exact N].
  - inversion IH as [|? ? IHx _]; subst.
    assert (Rx : ready x) by assumption.
    match goal with P : punct_leaf _ |- _ => destruct P as (sp & ->) end.
    cbn [to_diag_pair apply_rule map t_type bind mapR]. rewrite cty_eqb_refl. cbn [bind].
    assert (Gx : gx_leaf x) by (cbn in G; tauto).
    destruct (IHx Rx Gx) as ((w & g) & E & (W & T1 & T2 & N)); rewrite E; cbn [bind map fst snd].
    rewrite !tensor_all_cons, tensor_all_nil, !tensor_id_l, !tensor_id_r. cbn [fst snd] in *.
    destruct T2 as ((Wg & Dg & Cg) & Kg). rewrite <- Cg, then_id_r. cbn [bind]. eexists. split; [reflexivity|].
    exists W. split; [exact T1|]. split; [exact (conj (conj Wg (conj Dg Cg)) Kg)|exact N].
Qed.

Lemma planar_deriv_ok x : deriv x -> gx_leaf x -> exists d, tree_to_diagram true false x = Ok d /\
  typed d [] (to_grammar (t_type x)) /\ Permutation (word_names d) (sentence x) /\ kinds noswap d.
Proof.
  intros D G. unfold tree_to_diagram. cbn [bind].
  destruct (resolved_deriv D) as (y & -> & Ry & Ty & Sy & (Gy & _)). cbn [bind].
  destruct (pairs_planar Ry (Gy G)) as ((w & g) & -> & Wh). cbn [bind fst snd].
  destruct (whole_inner Wh) as (i & E & (T & K) & N). exists i. rewrite <- Ty, <- Sy. auto.
Qed.
