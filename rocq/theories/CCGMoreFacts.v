(** Proofs about CCGTree: JSON, trivial unary rules, noun phrase collapse. *)
From Verif Require Import PyBase PyFacts TyModel TyFacts DiagModel DiagSpec DiagFacts DiagCups DiagKinds
  CCGModel CCGSpec CCGTypeFacts CCGRuleFacts CCGTreeFacts CCGDiagFacts.
Set Implicit Arguments.
Unset Strict Implicit.

(** ** Constructor *)
Lemma built_inv s r t cs : built (CT s r t cs) ->
  Forall built cs /\ (r <> UNKNOWN -> List.length cs = required_children r) /\
  (truthy s = true -> cs = [] -> r = LEXICAL).
Proof.
  intro B. inversion B as [s' r' t' cs' x Bs E]; subst. unfold mk_tree in E.
  destruct (negb (rule_eqb r' UNKNOWN) && negb (List.length cs' =? required_children r')) eqn:Q; [discriminate|].
  injection E as E1 E2 E3 E4. subst s' t' cs'. split; auto.
  destruct (truthy s) eqn:T; cbn [andb] in *.
  - destruct cs as [|c cs]; cbn [List.length] in E2; [cbn in E2|change (S (List.length cs) =? 0) with false in E2; cbn [andb] in E2].
    + subst r. split; auto.
    + subst r'. split; [|discriminate]. intro N. apply andb_false_iff in Q as [Q|Q]; apply negb_false_iff in Q.
      * apply rule_eqb_iff in Q. congruence.
      * now apply Nat.eqb_eq in Q.
  - subst r'. split; [|discriminate]. intro N. apply andb_false_iff in Q as [Q|Q]; apply negb_false_iff in Q.
      * apply rule_eqb_iff in Q. congruence.
      * now apply Nat.eqb_eq in Q.
Qed.
Lemma mk_again s r t (cs ys : list ctree) : (r <> UNKNOWN -> List.length cs = required_children r) ->
  (truthy s = true -> cs = [] -> r = LEXICAL) -> List.length ys = List.length cs ->
  mk_tree s r t ys = Ok (CT s r t ys).
Proof.
  intros A B L. unfold mk_tree.
  replace (negb (rule_eqb r UNKNOWN) && negb (List.length ys =? required_children r)) with false.
  - f_equal. f_equal. destruct (truthy s) eqn:T; auto. cbn [andb]. destruct ys; auto. cbn. destruct cs; [|discriminate]. now rewrite B.
  - symmetry. apply andb_false_iff. destruct (rule_eqb r UNKNOWN) eqn:Q; auto. right.
    rewrite L, A, Nat.eqb_refl; auto. intros ->. discriminate.
Qed.

(** ** JSON *)
Lemma rule_value_round r : rule_of_value (rule_value r) = r.
Proof. now destruct r. Qed.
Lemma concat_text ys cs : Forall2 teq ys cs -> map t_text ys = map t_text cs.
Proof. intro F. induction F as [|a b l l' E F IH]; cbn; auto. inversion E; subst. congruence. Qed.

Lemma json_round x : built x -> all_types good x -> exists y, from_json (to_json x) = Ok y /\ teq y x.
Proof.
  induction x as [s r t cs IH] using ctree_ind'. intros B A. apply built_inv in B as (Bs & Ar & Lx).
  inversion A as [? ? ? ? Gt As]; subst.
  assert (exists ys, mapR from_json (map to_json cs) = Ok ys /\ Forall2 teq ys cs) as (ys & M & F).
  { clear - IH Bs As. induction IH as [|c cs Hc _ IHcs]; [exists []; auto|].
    inversion Bs; subst. inversion As; subst. destruct (Hc H1 H3) as (y & E & T). destruct IHcs as (ys & M & F); auto.
    exists (y :: ys). split; auto. cbn [map mapR]. rewrite E. cbn [bind]. rewrite M. reflexivity. }
  assert (L : List.length ys = List.length cs) by apply (Forall2_len' F).
  set (txt := if String.eqb (t_text (CT s r t cs)) (String.concat " " (map t_text cs)) then None else Some (t_text (CT s r t cs))).
  exists (CT txt r t ys). split.
  - change (to_json (CT s r t cs)) with (TJ (to_string t) (if rule_eqb r UNKNOWN then None else Some (rule_value r)) txt
      (match cs with [] => None | _ => Some (map to_json cs) end)).
    cbn [from_json]. rewrite (parse_to_string Gt). cbn [bind].
    assert (E : (match match cs with [] => None | _ => Some (map to_json cs) end with None => Ok [] | Some l => mapR from_json l end) = Ok ys).
    { destruct cs; [inversion F; subst; reflexivity|]. exact M. }
    rewrite E. cbn [bind].
    replace (match (if rule_eqb r UNKNOWN then None else Some (rule_value r)) with None => UNKNOWN | Some v => rule_of_value v end) with r
      by (destruct r; reflexivity).
    apply mk_again with (cs := cs); auto.
    unfold txt. intros T ->. destruct (String.eqb _ _) eqn:Q; [discriminate|].
    destruct s as [w|]; [|discriminate]. cbn [t_text] in T. auto.
  - constructor; auto.
    unfold txt. destruct (String.eqb _ _) eqn:Q; [|reflexivity].
    apply String.eqb_eq in Q. rewrite Q. cbn [t_text]. now rewrite (concat_text F).
Qed.

(** ** Trivial unary nodes *)
Lemma wt_cases s r t cs :
  (exists c, r = UNARY /\ cs = [c] /\ t = t_type c /\ without_trivial (CT s r t cs) = without_trivial c) \/
  (~ trivial_unary (CT s r t cs) /\ without_trivial (CT s r t cs) = CT s r t (map without_trivial cs)).
Proof.
  destruct r; try (right; split; [intros (? & ? & E); discriminate|reflexivity]).
  destruct cs as [|c [|c' cs]]; try (right; split; [intros (? & ? & E); discriminate|reflexivity]).
  cbn [without_trivial]. destruct (cty_eqb t (t_type c)) eqn:Q.
  - left. apply cty_eqb_iff in Q. eauto.
  - right. split; auto. intros (? & c' & E). injection E as ? ? ?. subst. now rewrite cty_eqb_refl in Q.
Qed.

Lemma wt_type x : t_type (without_trivial x) = t_type x.
Proof.
  induction x as [s r t cs IH] using ctree_ind'.
  destruct (wt_cases s r t cs) as [(c & -> & -> & -> & E)|(_ & E)]; rewrite E; auto.
  inversion IH; subst. auto.
Qed.
Lemma wt_leaves x : leaves (without_trivial x) = leaves x.
Proof.
  induction x as [s r t cs IH] using ctree_ind'.
  destruct (wt_cases s r t cs) as [(c & -> & -> & -> & E)|(_ & E)]; rewrite E.
  - inversion IH; subst. cbn. now rewrite app_nil_r.
  - cbn [leaves]. destruct cs as [|c cs]; auto. cbn [map]. inversion IH; subst. cbn [List.concat]. f_equal; auto.
    rewrite map_map. f_equal. apply map_ext_Forall. assumption.
Qed.
Lemma wt_clean x y : subtree y (without_trivial x) -> ~ trivial_unary y.
Proof.
  revert y. induction x as [s r t cs IH] using ctree_ind'. intros y.
  destruct (wt_cases s r t cs) as [(c & -> & -> & -> & E)|(N & E)]; rewrite E; intro Sb.
  - inversion IH; subst. auto.
  - inversion Sb as [|? ? ? ? c Hin Sb']; subst.
    + intros (s' & c & Ec). injection Ec as -> -> -> Ec.
      destruct cs as [|c' [|? ?]]; try discriminate. cbn in Ec. injection Ec as <-.
      apply N. exists s', c'. now rewrite wt_type.
    + apply in_map_iff in Hin as (c' & <- & Hin). rewrite Forall_forall in IH. now apply (IH c').
Qed.
Lemma wt_fixed x : (forall y, subtree y x -> ~ trivial_unary y) -> without_trivial x = x.
Proof.
  induction x as [s r t cs IH] using ctree_ind'. intro N.
  destruct (wt_cases s r t cs) as [(c & -> & -> & -> & E)|(_ & E)].
  - exfalso. apply (N (CT s UNARY (t_type c) [c])); [constructor|]. now exists s, c.
  - rewrite E. f_equal. rewrite <- (map_id cs) at 2. apply map_ext_Forall. rewrite Forall_forall in *.
    intros c Hc. apply IH; auto. intros y Sy. apply N. eapply Sub_child; eauto.
Qed.
Lemma wt_idem x : without_trivial (without_trivial x) = without_trivial x.
Proof. apply wt_fixed. apply wt_clean. Qed.
Lemma wt_pruned x : pruned x (without_trivial x).
Proof.
  induction x as [s r t cs IH] using ctree_ind'.
  destruct (wt_cases s r t cs) as [(c & -> & -> & -> & E)|(_ & E)]; rewrite E.
  - inversion IH; subst. now apply Pr_drop.
  - apply Pr_node. clear E. induction IH; cbn; constructor; auto.
Qed.

(** ** Noun phrases *)
Lemma replace_rename t : proper t -> c_replace NOUN_PHRASE NOUN t = Ok (rename np_to_n t).
Proof.
  induction t as [|n|x IHx d y IHy]; cbn [proper c_replace]; [easy| |].
  - intros _. cbn [cty_eqb NOUN_PHRASE rename]. unfold np_to_n. destruct (String.eqb n "np"); reflexivity.
  - intros (Px & Py). cbn [cty_eqb NOUN_PHRASE]. now rewrite IHx, IHy by assumption.
Qed.
Lemma collapse_retype x : built x -> all_types proper x -> collapse_np x = Ok (retype np_to_n x).
Proof.
  induction x as [s r t cs IH] using ctree_ind'. intros B A. apply built_inv in B as (Bs & Ar & Lx).
  inversion A as [? ? ? ? Gt As]; subst. cbn [collapse_np]. rewrite (replace_rename Gt). cbn [bind].
  assert (M : mapR collapse_np cs = Ok (map (retype np_to_n) cs)).
  { apply mapR_ok. clear - IH Bs As. induction IH; cbn; constructor; inversion Bs; inversion As; auto. }
  rewrite M. cbn [bind retype]. apply mk_again with (cs := cs); auto. now rewrite map_length.
Qed.
Lemma rename_no_np t : proper t -> ~ occurs NOUN_PHRASE (rename np_to_n t).
Proof.
  intros P (p & E). revert p E. induction t as [|n|x IHx d y IHy]; intros p E; [easy| |].
  - cbn [rename] in E. destruct p; cbn in E; [|discriminate]. injection E as E. unfold np_to_n in E.
    destruct (String.eqb n "np") eqn:Q; [discriminate|]. apply String.eqb_neq in Q. congruence.
  - destruct P as (Px & Py). destruct p as [|[] p]; cbn in E; [discriminate|..]; eauto.
Qed.
Lemma retype_all (P : cty -> Prop) x : all_types proper x -> (forall t, proper t -> P (rename np_to_n t)) -> all_types P (retype np_to_n x).
Proof.
  intros A H. induction x as [s r t cs IH] using ctree_ind'. inversion A as [? ? ? ? Gt As]; subst. cbn. constructor; auto.
  clear - IH As. induction IH; cbn; constructor; inversion As; auto.
Qed.

(** derivations are closed under renaming that respects the special atoms *)
Section Rename.
Variable f : string -> string.
Hypothesis fc : f "conj" = "conj"%string.
Hypothesis fp : f "punc" = "punc"%string.
Hypothesis fc' : forall n, f n = "conj"%string -> n = "conj"%string.
Hypothesis fp' : forall n, f n = "punc"%string -> n = "punc"%string.

Definition rctx_f (ctx : list (dir * cty)) := map (fun p : dir * cty => (fst p, rename f (snd p))) ctx.
Lemma rename_fill ctx x : rename f (fill ctx x) = fill (rctx_f ctx) (rename f x).
Proof. induction ctx as [|(d, y) ctx IH]; [reflexivity|]. cbn [fill rename rctx_f map fst snd]. rewrite IH. reflexivity. Qed.
Lemma instance_rename ru dm cd : instance ru dm cd -> instance ru (map (rename f) dm) (rename f cd).
Proof.
  destruct 1; cbn [map rename]; try constructor; rewrite ?rename_fill.
  - constructor.
    + destruct ctx; [congruence|discriminate].
    + unfold all_over, rctx_f. rewrite Forall_map. eapply Forall_impl; [|eassumption]. auto.
  - constructor.
    + destruct ctx; [congruence|discriminate].
    + unfold all_under, rctx_f. rewrite Forall_map. eapply Forall_impl; [|eassumption]. auto.
  - unfold rctx_f. rewrite map_app. cbn. constructor.
  - unfold rctx_f. rewrite map_app. cbn. constructor.
Qed.
Lemma rename_proper t : proper t -> proper (rename f t).
Proof. induction t; cbn; tauto. Qed.
Lemma rename_not_punct t : t <> PUNCTUATION -> rename f t <> PUNCTUATION.
Proof. destruct t as [|n|]; cbn; try discriminate. intros N E. injection E as E. apply N. now rewrite (fp' E). Qed.
Lemma rename_not_conj t : t <> CONJUNCTION -> rename f t <> CONJUNCTION.
Proof. destruct t as [|n|]; cbn; try discriminate. intros N E. injection E as E. apply N. now rewrite (fc' E). Qed.
Lemma rename_special c : c = CONJUNCTION \/ c = PUNCTUATION -> rename f c = c.
Proof. intros [->| ->]; cbn; [now rewrite fc|now rewrite fp]. Qed.
Lemma retype_type x : t_type (retype f x) = rename f (t_type x).
Proof. now destruct x. Qed.
Lemma retype_rule x : t_rule (retype f x) = t_rule x.
Proof. now destruct x. Qed.
Lemma retype_types cs : map t_type (map (retype f) cs) = map (rename f) (map t_type cs).
Proof. rewrite !map_map. apply map_ext. apply retype_type. Qed.
Lemma retype_punct p : punct_leaf p -> punct_leaf (retype f p).
Proof. intros (s & ->). exists s. cbn. now rewrite fp. Qed.
Lemma deriv_retype x : deriv x -> deriv (retype f x).
Proof.
  induction x as [s r t cs IH] using ctree_ind'. intro D. inversion D; subst; cbn [retype map].
  - apply D_leaf; [now apply rename_proper|now apply rename_not_punct].
  - apply D_rule; [|now apply rename_proper|].
    + rewrite retype_types. now apply instance_rename.
    + assert (Ds : Forall deriv cs) by assumption. clear - IH Ds. induction IH; cbn; constructor; inversion Ds; auto.
  - inversion IH as [|? ? _ IH1]; subst. inversion IH1; subst. rewrite <- retype_type. apply D_LP; [now apply retype_punct|auto].
  - inversion IH; subst. rewrite <- retype_type. apply D_RP; [now apply retype_punct|auto].
  - inversion IH; subst. rewrite <- retype_type. apply D_unary; auto.
  - inversion IH as [|? ? _ IH1]; subst. inversion IH1; subst. rewrite (@rename_special c) by assumption.
    apply D_conj_l; auto using rename_proper.
  - inversion IH; subst. rewrite (@rename_special c) by assumption.
    apply D_conj_r; auto using rename_proper; rewrite retype_type; [now apply rename_not_conj|now apply rename_not_punct].
Qed.
Lemma retype_text x : t_text (retype f x) = t_text x.
Proof.
  induction x as [s r t cs IH] using ctree_ind'. destruct s; auto. cbn. f_equal. rewrite map_map. now apply map_ext_Forall.
Qed.
Lemma retype_sentence x : sentence (retype f x) = sentence x.
Proof.
  induction x as [s r t cs IH] using ctree_ind'.
  assert (G : List.concat (map sentence (map (retype f) cs)) = List.concat (map sentence cs)).
  { rewrite map_map. f_equal. now apply map_ext_Forall. }
  destruct r; cbn [retype sentence]; auto.
  - f_equal. exact (retype_text (CT s LEXICAL t cs)).
  - destruct cs as [|a [|b [|? ?]]]; cbn [map]; auto. inversion IH as [|? ? _ IH1]; subst. inversion IH1; subst. auto.
  - destruct cs as [|a [|b [|? ?]]]; cbn [map]; auto. inversion IH; subst. auto.
Qed.
Lemma retype_gx x : gx_leaf x -> gx_leaf (retype f x).
Proof.
  induction x as [s r t cs IH] using ctree_ind'. intros (G1 & G2). cbn [retype]. split.
  - destruct r; auto; destruct cs as [|[? ? ? ?] [|[? ? ? ?] [|? ?]]]; auto.
  - clear G1. induction IH; cbn in *; auto. destruct G2; auto.
Qed.
End Rename.

Lemma deriv_built x : deriv x -> built x.
Proof.
  induction x as [s r t cs IH] using ctree_ind'. intro D.
  assert (K : forall s r t cs, Forall built cs -> r <> UNKNOWN -> r <> LEXICAL -> List.length cs = required_children r -> cs <> [] -> built (CT s r t cs)).
  { clear. intros s r t cs F N NL L Ne. apply Built with (s := s) (r := r) (t := t) (cs := cs); auto.
    apply mk_again with (cs := cs); auto. intros _ E. congruence. }
  assert (Lf : forall s t, built (CT s LEXICAL t [])).
  { clear. intros. apply Built with (s := s) (r := LEXICAL) (t := t) (cs := []); auto. apply mk_again with (cs := []); auto. }
  inversion D; subst.
  - apply Lf.
  - assert (I : instance r (map t_type cs) t) by assumption. assert (Ds : Forall deriv cs) by assumption.
    destruct (instance_not I) as (? & _ & _ & _ & _ & ?). pose proof (instance_arity I) as Ar. rewrite map_length in Ar.
    apply K; auto.
    + clear - IH Ds. induction IH; constructor; inversion Ds; auto.
    + intros ->. destruct I; discriminate.
  - inversion IH as [|? ? _ IH1]; subst. inversion IH1; subst. match goal with P : punct_leaf _ |- _ => destruct P as (sp & ->) end.
    apply K; try discriminate; auto.
  - inversion IH; subst. match goal with P : punct_leaf _ |- _ => destruct P as (sp & ->) end.
    apply K; try discriminate; auto.
  - inversion IH; subst. apply K; try discriminate; auto.
  - inversion IH as [|? ? _ IH1]; subst. inversion IH1; subst. apply K; try discriminate; auto.
  - inversion IH; subst. apply K; try discriminate; auto.
Qed.
Lemma deriv_types x : deriv x -> all_types proper x.
Proof.
  induction x as [s r t cs IH] using ctree_ind'. intro D. inversion D; subst.
  - constructor; auto.
  - assert (Ds : Forall deriv cs) by assumption. constructor; auto. clear - IH Ds. induction IH; constructor; inversion Ds; auto.
  - inversion IH as [|? ? _ IH1]; subst. inversion IH1; subst. match goal with P : punct_leaf _ |- _ => destruct P as (sp & ->) end.
    constructor; [now apply deriv_proper|]. constructor; [|constructor; auto]. now constructor.
  - inversion IH; subst. match goal with P : punct_leaf _ |- _ => destruct P as (sp & ->) end.
    constructor; [now apply deriv_proper|]. constructor; [auto|constructor; auto]. now constructor.
  - inversion IH; subst. constructor; [now apply deriv_proper|]. constructor; auto.
  - inversion IH as [|? ? _ IH1]; subst. inversion IH1; subst. constructor; [assumption|].
    constructor; [|constructor; auto]. constructor; auto. match goal with O : c = _ \/ c = _ |- _ => destruct O; subst; cbn; auto end.
  - inversion IH; subst. constructor; [assumption|].
    constructor; [auto|constructor; auto]. constructor; auto. match goal with O : c = _ \/ c = _ |- _ => destruct O; subst; cbn; auto end.
Qed.

Lemma np_facts : np_to_n "conj" = "conj"%string /\ np_to_n "punc" = "punc"%string /\
  (forall n, np_to_n n = "conj"%string -> n = "conj"%string) /\ (forall n, np_to_n n = "punc"%string -> n = "punc"%string).
Proof.
  repeat split; unfold np_to_n; intros n; destruct (String.eqb n "np"); auto; discriminate.
Qed.
Lemma collapse_diagram planar x : deriv x ->
  tree_to_diagram planar true x = tree_to_diagram planar false (retype np_to_n x) /\ deriv (retype np_to_n x).
Proof.
  intro D. destruct np_facts as (? & ? & ? & ?). split; [|now apply deriv_retype].
  unfold tree_to_diagram. rewrite (collapse_retype (deriv_built D) (deriv_types D)). reflexivity.
Qed.
