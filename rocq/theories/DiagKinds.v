(** Typing together with the kinds of boxes a diagram contains. *)
From Verif Require Import PyBase PyFacts TyModel TyFacts DiagModel DiagSpec DiagFacts DiagPerm DiagCups.
Set Implicit Arguments.
Unset Strict Implicit.

Definition is_cupcap (b : box) : Prop := match b with Cup _ _ _ | Cap _ _ _ => True | _ => False end.
Definition is_structural (b : box) : Prop := match b with Cup _ _ _ | Cap _ _ _ | Swap _ _ => True | _ => False end.
Definition is_word (b : box) : Prop := match b with Word _ _ _ => True | _ => False end.
Definition is_swap (b : box) : Prop := match b with Swap _ _ => True | _ => False end.

(** every box of the diagram satisfies [P] *)
Definition kinds (P : box -> Prop) (d : diagram) : Prop := Forall P (boxes d).
Definition tk (P : box -> Prop) (d : diagram) (s t : ty) : Prop := typed d s t /\ kinds P d.

Lemma kinds_mono (P Q : box -> Prop) d : (forall b, P b -> Q b) -> kinds P d -> kinds Q d.
Proof. intros H. apply Forall_impl, H. Qed.
Lemma tk_mono (P Q : box -> Prop) d s t : (forall b, P b -> Q b) -> tk P d s t -> tk Q d s t.
Proof. intros H (T & K). split; auto. now apply (kinds_mono H). Qed.
Lemma cupcap_structural b : is_cupcap b -> is_structural b.
Proof. destruct b; cbn; auto. Qed.

Lemma boxes_tensor a b : boxes (tensor a b) = boxes a ++ boxes b.
Proof.
  rewrite tensor_eq. unfold boxes. cbn [layers]. rewrite map_app, !map_map. f_equal; apply map_ext; intros ((?, ?), ?); reflexivity.
Qed.
Lemma boxes_id t : boxes (id t) = [].
Proof. reflexivity. Qed.
Lemma boxes_then a b c : d_then a b = Ok c -> boxes c = boxes a ++ boxes b.
Proof. intro H. apply d_then_inv in H as (_ & ->). unfold boxes. cbn. apply map_app. Qed.
Lemma boxes_then_at d x i c : then_at d x i = Ok c -> boxes c = boxes d ++ boxes x.
Proof.
  unfold then_at. intro H. apply boxes_then in H. rewrite H, !boxes_tensor. cbn. now rewrite app_nil_r.
Qed.
Lemma boxes_tensor_all ds : boxes (tensor_list (id []) ds) = List.concat (map boxes ds).
Proof.
  rewrite tensor_list_fold. assert (G : forall a, boxes (fold_left tensor ds a) = boxes a ++ List.concat (map boxes ds)).
  { induction ds as [|d ds IH]; intro a; cbn; [now rewrite app_nil_r|]. rewrite IH, boxes_tensor. now rewrite app_assoc. }
  apply G.
Qed.

Lemma tk_id P t : tk P (id t) t t.
Proof. split; [apply typed_id|constructor]. Qed.
Lemma tk_tensor P a b s t s' t' : tk P a s t -> tk P b s' t' -> tk P (tensor a b) (s ++ s') (t ++ t').
Proof.
  intros (T & K) (T' & K'). split; [now apply typed_tensor|]. unfold kinds. rewrite boxes_tensor. now apply Forall_app.
Qed.
Lemma tk_then P a b r s t : tk P a r s -> tk P b s t -> exists c, d_then a b = Ok c /\ tk P c r t.
Proof.
  intros (T & K) (T' & K'). destruct (typed_then T T') as (c & E & Tc). exists c. split; auto. split; auto.
  unfold kinds. rewrite (boxes_then E). now apply Forall_app.
Qed.
Lemma tk_to_diag (P : box -> Prop) b : box_ok b -> P b -> tk P (to_diag b) (b_dom b) (b_cod b).
Proof. intros H p. split; [now apply typed_box|]. repeat constructor; auto. Qed.

Lemma foldM_inv S A (f : S -> A -> res S) (I : S -> Prop) l : (forall x s s', I s -> f s x = Ok s' -> I s') ->
  forall s s', I s -> foldM f l s = Ok s' -> I s'.
Proof.
  intro H. induction l as [|x l IH]; cbn; intros s s' Is E; [congruence|].
  destruct (f s x) as [s1|] eqn:F; [|discriminate]. cbn in E. eauto.
Qed.
Lemma kinds_then_at P d x i c : kinds P d -> kinds P x -> then_at d x i = Ok c -> kinds P c.
Proof. intros K K' E. unfold kinds. rewrite (boxes_then_at E). now apply Forall_app. Qed.

Lemma cup_layers_kind t : Forall is_cupcap (map l_box (cup_layers t)).
Proof. induction t; cbn; constructor; cbn; auto. Qed.
Lemma cap_layers_kind t : forall pre, Forall is_cupcap (map l_box (cap_layers pre t)).
Proof. induction t; intro pre; cbn; constructor; cbn; auto. Qed.
Lemma tk_cups t : exists d, cups (rot (-1) t) t false = Ok d /\ tk is_cupcap d (rot (-1) t ++ t) [].
Proof.
  destruct (cups_typed t) as (d & E & T). exists d. split; auto. split; auto.
  rewrite cups_eq in E. injection E as <-. apply cup_layers_kind.
Qed.
Lemma tk_cups_l t : exists d, cups t (rot 1 t) false = Ok d /\ tk is_cupcap d (t ++ rot 1 t) [].
Proof. pose proof (tk_cups (rot 1 t)) as H. now rewrite rot_rl in H. Qed.
Lemma tk_caps t : exists d, caps (rot 1 t) t false = Ok d /\ tk is_cupcap d [] (rot 1 t ++ t).
Proof.
  destruct (caps_typed t) as (d & E & T). exists d. split; auto. split; auto.
  rewrite caps_eq in E. injection E as <-. apply cap_layers_kind.
Qed.
Lemma tk_caps_l t : exists d, caps t (rot (-1) t) false = Ok d /\ tk is_cupcap d [] (t ++ rot (-1) t).
Proof. pose proof (tk_caps (rot (-1) t)) as H. now rewrite rot_lr in H. Qed.
Lemma tk_swap s t : exists d, swap s t = Ok d /\ tk is_swap d (s ++ t) (t ++ s).
Proof.
  destruct (swap_typed s t) as (d & E & T). exists d. split; auto. split; auto. clear T.
  assert (G : foldM (fun d '(start, ob) =>
               foldM (fun d '(i, a) => then_at d (to_diag (Swap a ob)) (Z.of_nat (start + i)))
                     (rev (enum 0 s)) d) (enum 0 t) (id (s ++ t)) = Ok d -> kinds is_swap d).
  { apply (foldM_inv (I := kinds is_swap)); [|constructor].
    intros (st, ob) d1 d2 K. apply (foldM_inv (I := kinds is_swap)); auto.
    intros (i, a) d3 d4 K'. apply kinds_then_at; auto. constructor; cbn; auto. }
  unfold swap in E. destruct s as [|a [|? ?]], t as [|b [|? ?]]; auto. injection E as <-. constructor; cbn; auto.
Qed.
Lemma swap_structural b : is_swap b -> is_structural b.
Proof. destruct b; cbn; auto. Qed.

Lemma tk_fa a b : exists d, d_fa a b = Ok d /\ tk is_cupcap d (a ++ rot (-1) b ++ b) a.
Proof.
  unfold d_fa. destruct (tk_cups b) as (c & -> & T). eexists. split; [reflexivity|].
  pose proof (tk_tensor (tk_id is_cupcap a) T) as H. now rewrite app_nil_r in H.
Qed.
Lemma tk_ba a b : exists d, d_ba a b = Ok d /\ tk is_cupcap d (a ++ rot 1 a ++ b) b.
Proof.
  unfold d_ba. destruct (tk_cups_l a) as (c & -> & T). eexists. split; [reflexivity|].
  rewrite tensor_list_fold. cbn [fold_left]. rewrite tensor_id_l.
  pose proof (tk_tensor T (tk_id is_cupcap b)) as H. now rewrite <- app_assoc in H.
Qed.
Lemma tk_fc a m b : exists d, d_fc a m b = Ok d /\ tk is_cupcap d (a ++ rot (-1) m ++ m ++ rot (-1) b) (a ++ rot (-1) b).
Proof.
  unfold d_fc. destruct (tk_cups m) as (c & -> & T). eexists. split; [reflexivity|].
  pose proof (tk_tensor (tk_tensor (tk_id _ a) T) (tk_id _ (rot (-1) b))) as H.
  rewrite app_nil_r in H. now rewrite <- !app_assoc in H.
Qed.
Lemma tk_bc a m b : exists d, d_bc a m b = Ok d /\ tk is_cupcap d (rot 1 a ++ m ++ rot 1 m ++ b) (rot 1 a ++ b).
Proof.
  unfold d_bc. destruct (tk_cups_l m) as (c & -> & T). eexists. split; [reflexivity|].
  pose proof (tk_tensor (tk_tensor (tk_id _ (rot 1 a)) T) (tk_id _ b)) as H.
  rewrite app_nil_r in H. now rewrite <- !app_assoc in H.
Qed.
Lemma tk_fx a m b : exists d, d_fx a m b = Ok d /\ tk is_structural d (a ++ rot (-1) m ++ rot 1 b ++ m) (rot 1 b ++ a).
Proof.
  unfold d_fx. destruct (tk_swap (rot (-1) m) (rot 1 b)) as (s1 & -> & T1).
  destruct (tk_swap a (rot 1 b)) as (s2 & -> & T2). destruct (tk_cups m) as (c & -> & Tc). cbn [bind].
  apply (tk_mono swap_structural) in T1, T2. apply (tk_mono cupcap_structural) in Tc.
  pose proof (tk_tensor (tk_tensor (tk_id _ a) T1) (tk_id _ m)) as H1.
  pose proof (tk_tensor T2 Tc) as H2. repeat rewrite <- app_assoc in H1. repeat rewrite <- app_assoc in H2.
  destruct (tk_then H1 H2) as (d & E & T). exists d. split; auto. now rewrite app_nil_r in T.
Qed.
Lemma tk_bx a m b : exists d, d_bx a m b = Ok d /\ tk is_structural d (m ++ rot (-1) a ++ rot 1 m ++ b) (b ++ rot (-1) a).
Proof.
  unfold d_bx. destruct (tk_swap (rot (-1) a) (rot 1 m)) as (s1 & -> & T1).
  destruct (tk_swap (rot (-1) a) b) as (s2 & -> & T2). destruct (tk_cups_l m) as (c & -> & Tc). cbn [bind].
  apply (tk_mono swap_structural) in T1, T2. apply (tk_mono cupcap_structural) in Tc.
  pose proof (tk_tensor (tk_tensor (tk_id _ m) T1) (tk_id _ b)) as H1.
  pose proof (tk_tensor Tc T2) as H2. repeat rewrite <- app_assoc in H1. repeat rewrite <- app_assoc in H2.
  destruct (tk_then H1 H2) as (d & E & T). exists d. split; auto.
Qed.
