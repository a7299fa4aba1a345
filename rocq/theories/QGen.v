(** Generated quantum boxes (proofs only). *)
From Coq Require Import Ring_theory Ring QArith.
From Verif Require Import PyBase PyFacts DiagModel DiagPerm GDiag GDiagSpec GDiagFacts QModel QSpec QFacts QPlace QApply QGenSpec.
Close Scope Q_scope.
Set Implicit Arguments. Unset Strict Implicit.

Lemma qtyped_tensor_all ds ss ts : Forall2 (fun d st => qtyped d (fst st) (snd st)) ds (combine ss ts) -> List.length ss = List.length ts -> qtyped (tensor_all ds) (List.concat ss) (List.concat ts).
Proof. intros F L. apply (@gtyped_tensor_list wire qbox q_dom q_cod ds (gid []) [] [] ss ts); auto. apply gtyped_id. Qed.
Lemma qtyped_tensor_map X (f : X -> qdiag) (s t : X -> list wire) l : (forall x, In x l -> qtyped (f x) (s x) (t x)) -> qtyped (tensor_all (map f l)) (flat_map s l) (flat_map t l).
Proof.
  intro H. rewrite !flat_map_concat_map. apply qtyped_tensor_all; [|now rewrite !map_length].
  induction l as [|x l IH]; cbn; constructor; [apply H; now left|apply IH; intros; apply H; now right].
Qed.
Lemma tensor_all_cons d ds : tensor_all (d :: ds) = gtensor d (tensor_all ds). Proof. apply gtensor_list_id. Qed.
Lemma boxes_tensor_all X (f : X -> qdiag) l : gboxes (tensor_all (map f l)) = flat_map (fun x => gboxes (f x)) l.
Proof. induction l as [|x l IH]; [reflexivity|]. cbn [map flat_map]. rewrite tensor_all_cons, gboxes_tensor, IH. reflexivity. Qed.
Lemma wires_eqb_ok s t : wires_eqb s t = true <-> s = t. Proof. apply gteqb_ok, wire_eqb_ok. Qed.

(** ** init_and_discard *)
Lemma bits_only t : t = repeat Bt (List.length t) -> count_b t = List.length t.
Proof.
  intro E. unfold count_b. assert (H : forall n, List.length (filter (wire_eqb Bt) (repeat Bt n)) = n) by (induction n; cbn; auto). rewrite E, H, !repeat_length. reflexivity.
Qed.
Definition is_init (b : qbox) : bool := match b with QKet false | QBit false => true | _ => false end.
Lemma init_and_discard_ok c s t : qtyped c s t -> exists c' pre post,
  init_and_discard c = Ok c' /\ qtyped c' [] (repeat Bt (count_b t)) /\ glayers c' = pre ++ glayers c ++ post /\
  map gl_box pre = map (fun w => match w with Qb => QKet false | Bt => QBit false end) s /\ map gl_box post = repeat QDisc (count_q t).
Proof.
  intros T. unfold init_and_discard.
  assert (exists c1 pre, (match gdom c with [] => Ok c | t0 => qthen (tensor_all (map (fun x => match x with Qb => qb (QKet false) | Bt => qb (QBit false) end) t0)) c end) = Ok c1 /\
     qtyped c1 [] t /\ glayers c1 = pre ++ glayers c /\ map gl_box pre = map (fun w => match w with Qb => QKet false | Bt => QBit false end) s) as (c1 & pre & E1 & T1 & L1 & B1).
  { destruct T as (W & D & C). rewrite D. destruct s as [|w s']; [exists c, []; repeat split; auto; congruence|]. set (s := w :: s') in *.
    set (ini := tensor_all _). assert (TI : qtyped ini [] s).
    { assert (H := @qtyped_tensor_map wire (fun x => match x with Qb => qb (QKet false) | Bt => qb (QBit false) end) (fun _ => []) (fun x => [x]) s).
      assert (F1 : flat_map (fun _ : wire => @nil wire) s = []) by (clear; induction s; auto).
      assert (F2 : flat_map (fun x : wire => [x]) s = s) by (clear; induction s; cbn; congruence). rewrite F1, F2 in H. apply H. intros [] _; apply gtyped_box. }
    destruct (gtyped_then wire_eqb_ok TI (conj W (conj D C))) as (c1 & E & T1 & L). exists c1, (glayers ini). repeat split; auto; try apply T1.
    transitivity (gboxes ini); [reflexivity|]. unfold ini. rewrite boxes_tensor_all. clear. induction s as [|[] s IH]; cbn; congruence. }
  match goal with |- context [bind ?x _] => replace x with (@Ok qdiag c1) by (symmetry; exact E1) end. cbn [bind]. destruct T1 as (W1 & D1 & C1). rewrite C1. destruct (wires_eqb t (repeat Bt (List.length t))) eqn:Eb; cbn [negb].
  - apply wires_eqb_ok in Eb. exists c1, pre, []. rewrite app_nil_r. repeat split; auto.
    + now rewrite C1, (bits_only Eb).
    + unfold count_q. rewrite Eb. clear. induction (List.length t); cbn; auto.
  - set (dis := tensor_all _). assert (TD : qtyped dis t (repeat Bt (count_b t))).
    { assert (H := @qtyped_tensor_map wire (fun x => match x with Qb => qb QDisc | Bt => qid [Bt] end) (fun x => [x]) (fun x => match x with Qb => [] | Bt => [Bt] end) t).
      assert (F1 : flat_map (fun x : wire => match x with Qb => [] | Bt => [Bt] end) t = repeat Bt (count_b t)) by (clear; unfold count_b; induction t as [|[] t IH]; cbn; congruence).
      assert (F2 : flat_map (fun x : wire => [x]) t = t) by (clear; induction t; cbn; congruence). rewrite F1, F2 in H. apply H. intros [] _; [apply gtyped_box|apply gtyped_id]. }
    destruct (gtyped_then wire_eqb_ok (conj W1 (conj D1 C1)) TD) as (c2 & E & T2 & L). unfold qthen. rewrite E. exists c2, pre, (glayers dis). split; auto. split; auto. split; [now rewrite L, L1, <- app_assoc|]. split; auto.
    transitivity (gboxes dis); [reflexivity|]. unfold dis. rewrite boxes_tensor_all. clear. unfold count_q. induction t as [|[] t IH]; cbn; congruence.
Qed.

(** ** Operators of composed circuits *)
Section Sem.
  Variable K : Type. Variable base : qbox -> oper K. Hypothesis HI : interp_ok base.
  Notation arr := (q_array base).
  Definition lbox (b : qbox) : Prop := local_op (List.length (q_dom b)) (List.length (q_cod b)) (arr b).
  Lemma layers_local (ls : list (list wire * qbox * list wire)) : Forall (fun x => lbox (gl_box x)) ls -> forall s t, gchain q_dom q_cod s ls t -> local_op (List.length s) (List.length t) (q_layers arr ls).
  Proof.
    induction 1 as [|[[l b] r] ls Hb _ IH]; cbn [gchain q_layers]; intros s t.
    - intros <- psi phi H x L. now apply H.
    - intros [-> Hc] psi phi H x L. cbn [gl_box fst snd] in Hb. apply (IH _ _ Hc); auto. intros y Ly. rewrite !app_length in Ly.
      apply (@on_wires_local K (List.length l) _ _ (List.length r) _ Hb); [|lia]. intros z Lz. apply H. rewrite !app_length. lia.
  Qed.
  Lemma layers_ext l r (ls : list (list wire * qbox * list wire)) : Forall (fun x => lbox (gl_box x)) ls -> forall s t, gchain q_dom q_cod s ls t -> forall psi xl xm xr, List.length xl = List.length l -> List.length xm = List.length t ->
    q_layers arr (map (gext l r) ls) psi (xl ++ xm ++ xr) = q_layers arr ls (fun z => psi (xl ++ z ++ xr)) xm.
  Proof.
    induction 1 as [|[[l0 b] r0] ls Hb F IH]; cbn [gchain q_layers map]; intros s t.
    - auto.
    - intros [-> Hc] psi xl xm xr Ll Lm. unfold gext at 1. unfold gl_left, gl_box, gl_right. cbn [fst snd] in *. unfold gl_box in Hb. cbn [fst snd] in Hb.
      rewrite (IH _ _ Hc) by auto. apply (layers_local F Hc); auto. intros z Lz. rewrite !app_length in Lz.
      destruct (@split3 (List.length l0) (List.length (q_cod b)) z) as (a & y & c & -> & La & Ly); [lia|].
      rewrite (@on_wires_mid K (List.length l0)) by auto. rewrite app_length.
      replace (xl ++ (a ++ y ++ c) ++ xr) with ((xl ++ a) ++ y ++ (c ++ xr)) by now rewrite <- !app_assoc.
      rewrite (@on_wires_mid K (List.length l + List.length l0)) by (rewrite ?app_length; lia). apply Hb; auto. intros y' _. now rewrite <- !app_assoc.
  Qed.
  Definition gdbox (b : qbox) : Prop := lbox b /\ lbox (q_dag b) /\ q_dag (q_dag b) = b /\ q_dom (q_dag b) = q_cod b /\ q_cod (q_dag b) = q_dom b.
  Definition dagl (x : list wire * qbox * list wire) : list wire * qbox * list wire := (gl_left x, q_dag (gl_box x), gl_right x).
  Definition good (D : qdiag) : Prop := Forall (fun x => gdbox (gl_box x)) (glayers D).
  (** operator of a circuit and of its dagger *)
  Definition sem (D : qdiag) (s t : list wire) (u w : oper K) : Prop :=
    qtyped D s t /\ good D /\ (forall psi y, List.length y = List.length t -> q_eval base D psi y = u psi y) /\
    (forall psi y, List.length y = List.length s -> q_layers arr (map dagl (rev (glayers D))) psi y = w psi y).
  Lemma good_l (ls : list (list wire * qbox * list wire)) : Forall (fun x => gdbox (gl_box x)) ls -> Forall (fun x => lbox (gl_box x)) ls.
  Proof. apply Forall_impl. intros x H. apply H. Qed.
  Lemma good_r (ls : list (list wire * qbox * list wire)) : Forall (fun x => gdbox (gl_box x)) ls -> Forall (fun x => lbox (gl_box x)) (map dagl (rev ls)).
  Proof. intro H. apply Forall_map. apply Forall_rev. revert H. apply Forall_impl. intros x H. apply H. Qed.
  Lemma dag_chain (ls : list (list wire * qbox * list wire)) : Forall (fun x => gdbox (gl_box x)) ls -> forall s t, gchain q_dom q_cod s ls t -> gchain q_dom q_cod t (map dagl (rev ls)) s.
  Proof.
    induction 1 as [|[[l b] r] ls Hb F IH]; cbn; intros s t; [auto|]. intros [-> Hc]. rewrite map_app. apply gchain_app. exists (l ++ q_cod b ++ r). split; [now apply IH|].
    destruct Hb as (_ & _ & _ & Hd & Hc'). cbn in *. rewrite Hd, Hc'. auto.
  Qed.
  Lemma sem_ext D s t u w u' w' : sem D s t u w -> (forall psi y, List.length y = List.length t -> u psi y = u' psi y) -> (forall psi y, List.length y = List.length s -> w psi y = w' psi y) -> sem D s t u' w'.
  Proof. intros (T & G & U & W) H1 H2. split; auto. split; auto. split; intros; [rewrite U|rewrite W]; auto. Qed.
  Lemma sem_id t : sem (qid t) t t (fun psi => psi) (fun psi => psi).
  Proof. split; [apply gtyped_id|]. repeat split. constructor. Qed.
  Lemma sem_box b : gdbox b -> sem (qb b) (q_dom b) (q_cod b) (arr b) (arr (q_dag b)).
  Proof.
    intros Hb. split; [apply gtyped_box|]. split; [constructor; [exact Hb|constructor]|]. destruct Hb as (H1 & H2 & _ & E1 & E2). split; intros psi y L; cbn.
    - rewrite <- (app_nil_r y) at 1. change (y ++ []) with ([] ++ y ++ []). rewrite on_wires_mid by auto. apply H1; auto. intros z _. cbn. now rewrite app_nil_r.
    - rewrite E2, firstn_all2, skipn_all2 by lia. apply H2; auto; [|now rewrite E2]. intros z _. now rewrite app_nil_r.
  Qed.
  Lemma sem_then A B s t r u w u' w' : sem A s t u w -> sem B t r u' w' -> exists C, qthen A B = Ok C /\ sem C s r (fun psi => u' (u psi)) (fun psi => w (w' psi)).
  Proof.
    intros (T & G & U & W) (T' & G' & U' & W'). destruct (gtyped_then wire_eqb_ok T T') as (C & E & TC & L). exists C. split; auto. split; auto. split; [unfold good; rewrite L; apply Forall_app; auto|]. split.
    - intros psi y Ly. unfold q_eval. rewrite L, q_layers_app. destruct T' as (Wf' & D' & C'). rewrite <- (U' (u psi) y Ly). unfold GDiagSpec.gwf in Wf'.
      apply (layers_local (good_l G') Wf'); [|now rewrite C']. intros z Lz. rewrite D' in Lz. now apply U.
    - intros psi y Ly. rewrite L, rev_app_distr, map_app, q_layers_app. destruct T as (Wf & D & C0). rewrite <- (W (w' psi) y Ly). unfold GDiagSpec.gwf in Wf.
      apply (layers_local (good_r G) (dag_chain G Wf)); [|now rewrite D]. intros z Lz. rewrite C0 in Lz. now apply W'.
  Qed.
  Lemma dagl_ext l r (ls : list (list wire * qbox * list wire)) : map dagl (rev (map (gext l r) ls)) = map (gext l r) (map dagl (rev ls)).
  Proof. rewrite <- map_rev, !map_map. apply map_ext. reflexivity. Qed.
  Lemma sem_tensor A B s t s' t' u w u' w' : sem A s t u w -> sem B s' t' u' w' ->
    local_op (List.length s') (List.length t') u' -> local_op (List.length t) (List.length s) w ->
    sem (qtensor A B) (s ++ s') (t ++ t')
      (fun psi y => u' (fun b => u (fun a => psi (a ++ b)) (firstn (List.length t) y)) (skipn (List.length t) y))
      (fun psi y => w (fun a => w' (fun b => psi (a ++ b)) (skipn (List.length s) y)) (firstn (List.length s) y)).
  Proof.
    intros (T & G & U & W) (T' & G' & U' & W') Lu Lw. split; [now apply gtyped_tensor|]. destruct T as (Wf & D & C), T' as (Wf' & D' & C'). split.
    { unfold good. cbn. apply Forall_app. split; apply Forall_map; [revert G|revert G']; apply Forall_impl; auto. }
    split.
    - intros psi y Ly. rewrite app_length in Ly. destruct (split_at Ly) as (a & b & -> & La & Lb). rewrite firstn_app, skipn_app, firstn_all2, skipn_all2, <- La, Nat.sub_diag by lia. cbn [firstn skipn app]. rewrite app_nil_r.
      unfold q_eval. cbn [qtensor gtensor glayers]. rewrite q_layers_app. rewrite C. replace (a ++ b) with (a ++ b ++ []) by now rewrite app_nil_r.
      rewrite (@layers_ext t [] _ (good_l G') _ _ Wf'); [|auto|now rewrite C'].
      assert (H : forall phi, q_layers arr (glayers B) phi b = u' phi b) by (intro phi; apply U'; auto). rewrite H. apply Lu; auto. intros z Lz.
      rewrite D'. change (a ++ z ++ []) with ([] ++ a ++ z ++ []). rewrite app_nil_r. rewrite (@layers_ext [] s' _ (good_l G) _ _ Wf); [|auto|now rewrite C].
      fold (q_eval base A). now rewrite U by auto.
    - intros psi y Ly. rewrite app_length in Ly. destruct (split_at Ly) as (a & b & -> & La & Lb). rewrite firstn_app, skipn_app, firstn_all2, skipn_all2, <- La, Nat.sub_diag by lia. cbn [firstn skipn app]. rewrite app_nil_r.
      cbn [qtensor gtensor glayers]. rewrite rev_app_distr, map_app, q_layers_app, !dagl_ext. rewrite C, D'. change (a ++ b) with ([] ++ a ++ b).
      rewrite (@layers_ext [] s' _ (good_r G) _ _ (dag_chain G Wf)); [|auto|now rewrite D].
      rewrite W by (rewrite La; auto). apply Lw; [|auto]. intros z Lz. cbn [app]. replace (z ++ b) with (z ++ b ++ []) by now rewrite app_nil_r.
      rewrite (@layers_ext t [] _ (good_r G') _ _ (dag_chain G' Wf')); [|auto|now rewrite D']. rewrite W' by auto.
      assert (LW : local_op (List.length t') (List.length s') w').
      { intros p q Hp x Lx. rewrite <- !W' by auto. pose proof (layers_local (good_r G') (dag_chain G' Wf')) as LL. rewrite C', D' in LL. apply LL; auto. }
      apply LW; auto. intros y _. now rewrite app_nil_r.
  Qed.
  Lemma sem_local D s t u w : sem D s t u w -> local_op (List.length s) (List.length t) u /\ local_op (List.length t) (List.length s) w.
  Proof.
    intros ((Wf & D' & C) & G & U & W). split; intros p q Hp x Lx.
    - rewrite <- !U by auto. pose proof (layers_local (good_l G) Wf) as LL. rewrite C, D' in LL. apply LL; auto.
    - rewrite <- !W by auto. pose proof (layers_local (good_r G) (dag_chain G Wf)) as LL. rewrite C, D' in LL. apply LL; auto.
  Qed.
  Lemma dagl_inv (ls : list (list wire * qbox * list wire)) : Forall (fun x => gdbox (gl_box x)) ls -> map dagl (rev (map dagl (rev ls))) = ls.
  Proof.
    intro F. rewrite <- map_rev, rev_involutive, map_map. rewrite <- (map_id ls) at 2. apply map_ext_in. intros [[l b] r] Hin. rewrite Forall_forall in F. apply F in Hin.
    destruct Hin as (_ & _ & E & _). unfold dagl, gl_left, gl_box, gl_right in *. cbn in *. now rewrite E.
  Qed.
  Lemma sem_dagger D s t u w : sem D s t u w -> sem (qdagger D) t s w u.
  Proof.
    intros (T & G & U & W). assert (L : glayers (qdagger D) = map dagl (rev (glayers D))) by (unfold qdagger; apply gdagger_layers). split; [|split; [|split]].
    - destruct T as (Wf & D' & C). unfold qdagger, gdagger. destruct (glayers D) as [|x ls] eqn:E.
      + unfold GDiagSpec.gwf in Wf. rewrite E in Wf. cbn in Wf. repeat split; try congruence. unfold GDiagSpec.gwf. now rewrite E.
      + rewrite <- E. split; [|split; auto]. unfold GDiagSpec.gwf. cbn [gdom gcod glayers]. apply dag_chain; auto.
    - unfold good. rewrite L. apply Forall_map, Forall_rev. revert G. apply Forall_impl. intros x (H1 & H2 & H3 & H4 & H5). unfold gdbox, dagl, gl_box in *. cbn [fst snd] in *. rewrite H3, H4, H5. auto.
    - intros psi y Ly. unfold q_eval. rewrite L. now apply W.
    - intros psi y Ly. rewrite L. rewrite dagl_inv by auto. now apply U.
  Qed.
End Sem.
