(** Gates, parameters and typing of ansatz circuits and of the functor (proofs only). *)
From Coq Require Import QArith Ring_theory.
From Verif Require Import PyBase PyFacts TyModel TyFacts DiagModel DiagSpec DiagFacts DiagRot DiagMisc GDiag GDiagSpec GDiagFacts QModel QSpec QFacts QPlace QApply QGenSpec QGen QSpider AnsatzModel AnsatzSpec AnsatzFacts AnsatzCirc AnsatzAr AnsatzNameModel AnsatzNameFacts AnsatzDiagSpec.
Close Scope Q_scope. Close Scope string_scope. Set Implicit Arguments. Unset Strict Implicit.

(** ** the gates are well formed *)
Lemma ctl_ok n is g (c t : nat -> nat) : (forall i, In i is -> one_qubit (g i) /\ named_ok (g i) /\ c i < n /\ t i < n /\ c i <> t i) -> Forall (gate_ok n) (ctl is g c t).
Proof.
  intros H. unfold ctl. apply Forall_map, Forall_forall. intros i Hi. destruct (H i Hi) as (H1 & H2 & H3 & H4 & H5). unfold gate_ok. cbn. repeat split; auto; try apply H1.
Qed.
Lemma each_ok n g : (forall i, one_qubit (g i) /\ named_ok (g i)) -> Forall (gate_ok n) (each n g).
Proof. intros H. unfold each. apply Forall_map, Forall_forall. intros i Hi. apply in_seq in Hi. destruct (H i). unfold gate_ok. cbn. repeat split; auto; try apply H0; lia. Qed.
Lemma rot_named a p : one_qubit (QRot a p) /\ named_ok (QRot a p). Proof. repeat split. Qed.
Lemma H_named : one_qubit gH /\ named_ok gH. Proof. repeat split; discriminate. Qed.
Lemma X_named : one_qubit gX /\ named_ok gX. Proof. repeat split; discriminate. Qed.
Lemma Z_named : one_qubit gZ /\ named_ok gZ. Proof. repeat split; discriminate. Qed.
Lemma layer_gates_ok k n l th L : n >= 2 -> l < L -> ranges_ok k L n -> Forall (gate_ok n) (layer_gates k n l th).
Proof.
  intros Hn Hl R.
  assert (P : forall g, (forall i, one_qubit (g i) /\ named_ok (g i)) -> Forall (gate_ok n) (ctl (seq 0 n) g (fun i => i) (fun i => (i + (n - 1)) mod n))).
  { intros g Hg. apply ctl_ok. intros i Hi. apply in_seq in Hi. destruct (Hg i). split; [|split; [|split; [lia|split]]]; auto. - apply Nat.mod_upper_bound. lia. - rewrite <- (Nat.mod_small i n) at 1 by lia. apply mod_neq. lia. }
  assert (Q : forall g, (forall i, one_qubit (g i) /\ named_ok (g i)) -> Forall (gate_ok n) (ctl (rev (seq 1 n)) g (fun i => i mod n) (fun i => S i mod n))).
  { intros g Hg. apply ctl_ok. intros i Hi. destruct (Hg i). split; [|split; [|split; [|split]]]; auto; try (apply Nat.mod_upper_bound; lia). replace (S i) with (i + 1) by lia. apply mod_neq. lia. }
  assert (S' : forall g, (forall i, one_qubit (g i) /\ named_ok (g i)) -> Forall (gate_ok n) (ctl (seq 0 (n - 1)) g (fun i => i) S)).
  { intros g Hg. apply ctl_ok. intros i Hi. apply in_seq in Hi. destruct (Hg i). split; [|split; [|split; [|split]]]; auto; lia. }
  destruct k; cbn [layer_gates]; repeat (apply Forall_app; split); try (apply each_ok; intros; first [apply H_named|apply rot_named]); try (first [apply P|apply Q|apply S']; intros; first [apply X_named|apply Z_named|apply rot_named]).
  - apply Forall_forall. intros x Hx. apply in_flat_map in Hx as (q & Hq & Hx). apply in_seq in Hq. assert (G : forall a p, gate_ok n (QRot a p, [], q)). { intros. unfold gate_ok. cbn. repeat split; auto; lia. } cbn in Hx. intuition subst; apply G.
  - apply ctl_ok. intros i Hi. apply in_seq in Hi. destruct X_named. split; [|split; [|split; [lia|split]]]; auto. + apply Nat.mod_upper_bound. lia.
    + destruct (@strent_step_ok n L Hn ranges l R Hl) as (z & _ & _ & Ho). rewrite <- (Nat.mod_small i n) at 1 by lia. apply mod_neq. lia.
Qed.
Lemma ansatz_gates_ok k L n th : n >= 2 -> ranges_ok k L n -> Forall (gate_ok n) (ansatz_gates k L n th).
Proof.
  intros Hn R. unfold ansatz_gates. apply Forall_app. split.
  - apply Forall_forall. intros x Hx. apply in_flat_map in Hx as (l & Hl & Hx). apply in_seq in Hl. assert (F := @layer_gates_ok k n l (th l) L Hn ltac:(lia) R). rewrite Forall_forall in F. auto.
  - destruct k, L; try (apply (@each_ok n (fun _ => gH)); intros; apply H_named); constructor.
Qed.

(** ** parameters *)
Definition gate_params (g : qbox * list nat * nat) : list param := params_of (fst (fst g)).
Lemma each_params n g : flat_map gate_params (each n g) = flat_map (fun i => params_of (g i)) (seq 0 n).
Proof. unfold each. rewrite !flat_map_concat_map, map_map. reflexivity. Qed.
Lemma ctl_params is g c t : flat_map gate_params (ctl is g c t) = flat_map (fun i => params_of (g i)) is.
Proof. unfold ctl. rewrite !flat_map_concat_map, map_map. reflexivity. Qed.
Lemma params_none g (l : list nat) : params_of g = [] -> flat_map (fun _ => params_of g) l = []. Proof. intros ->. induction l; auto. Qed.
Lemma seq_off a n : map (fun i => a + i) (seq 0 n) = seq a n.
Proof. revert a. induction n; intros; [reflexivity|]. cbn. rewrite <- seq_shift, map_map, Nat.add_0_r. f_equal. rewrite <- (IHn (S a)). apply map_ext. intros. lia. Qed.
Lemma rev_seq_off m n : map (fun i => m - i) (rev (seq 1 n)) = seq (m - n) n \/ m < n.
Proof.
  destruct (Nat.lt_ge_cases m n) as [H|H]; auto. left. revert m H. induction n; intros m H; [reflexivity|]. rewrite seq_S, rev_app_distr. cbn [rev app map Nat.add]. cbn [seq]. f_equal. rewrite IHn by lia. f_equal; lia.
Qed.
Lemma params_rots X (f : X -> nat) (th : nat -> param) (a : raxis) l : flat_map (fun i => params_of (QRot a (th (f i)))) l = map th (map f l).
Proof. rewrite map_map. apply (flat_map_one (fun i => th (f i))). Qed.
Lemma layer_params_ok k n l th : n >= 1 -> flat_map gate_params (layer_gates k n l th) = map th (seq 0 (layer_params k n)).
Proof.
  intros Hn.
  destruct k; cbn [layer_gates layer_params]; rewrite ?flat_map_app, ?each_params, ?ctl_params.
  - rewrite params_none by reflexivity. cbn [app]. rewrite (params_rots (fun i => i)). now rewrite map_id.
  - rewrite (params_rots (fun i => i)), (params_rots (fun i => n + i)), (params_rots (fun i => 2 * n + i)), (params_rots (fun i => 4 * n - i)), map_id, <- !map_app. f_equal. rewrite !seq_off.
    destruct (rev_seq_off (4 * n) n) as [->|]; [|lia]. replace (4 * n) with (n + (n + (n + n))) at 2 by lia. rewrite !seq_app. cbn [Nat.add]. repeat (f_equal; try lia).
  - rewrite (params_rots (fun i => i)), (params_rots (fun i => n + i)), map_id, !params_none by reflexivity. rewrite !app_nil_l, app_nil_r, <- !map_app. f_equal. rewrite !seq_off. replace (2 * n) with (n + n) by lia. now rewrite seq_app.
  - rewrite (params_rots (fun i => i)), (params_rots (fun i => n + i)), (params_rots (fun i => 2 * n + i)), map_id, <- !map_app. f_equal. rewrite !seq_off. replace (3 * n - 1) with (n + (n + (n - 1))) by lia. rewrite !seq_app. cbn [Nat.add]. repeat (f_equal; try lia).
  - rewrite params_none by reflexivity. rewrite app_nil_r. rewrite (flat_map_concat_map _ (flat_map _ _)), flat_map_concat_map, concat_map, map_map, <- flat_map_concat_map.
    cbn [map gate_params fst params_of]. clear Hn. induction n; [reflexivity|]. rewrite seq_S, flat_map_app. replace (3 * S n) with (3 * n + 3) by lia. rewrite seq_app, map_app. rewrite concat_app. rewrite <- IHn. f_equal. cbn. rewrite !Nat.add_0_r. repeat (f_equal; try lia).
  - rewrite !params_none by reflexivity. cbn [app]. rewrite (params_rots (fun i => i)). now rewrite map_id.
  - rewrite !params_none by reflexivity. cbn [app]. rewrite (params_rots (fun i => i)). now rewrite map_id.
Qed.
Lemma params_base b : params_of (ctl_base b) = params_of b. Proof. induction b; auto. Qed.
Lemma built_params n c gs : built n c gs -> flat_map params_of (gboxes c) = flat_map gate_params gs.
Proof.
  intros (_ & _ & <-). unfold gboxes. rewrite !flat_map_concat_map, !map_map. f_equal. apply map_ext. intros [[l b] r]. unfold gate_params, gate_of. cbn. destruct (place b (List.length l)). cbn. now rewrite params_base.
Qed.
Lemma flat_map_flat X Y Z (f : Y -> list Z) (g : X -> list Y) l : flat_map f (flat_map g l) = flat_map (fun x => flat_map f (g x)) l.
Proof. induction l; [reflexivity|]. cbn. now rewrite flat_map_app, IHl. Qed.
Lemma flat_map_rows X (f : nat -> X) k : forall L s, flat_map (fun l => map (fun i => f (l * k + i)) (seq 0 k)) (seq s L) = map f (seq (s * k) (L * k)).
Proof.
  induction L; intros s; [reflexivity|]. cbn [seq flat_map]. rewrite IHL. cbn [Nat.mul]. rewrite seq_app, map_app. f_equal; [|f_equal; f_equal; lia]. rewrite <- (seq_off (s * k) k), map_map. reflexivity.
Qed.
Lemma box_gates_params A n label : flat_map gate_params (box_gates A n label) = map (sym label) (seq 0 (n_params A n)).
Proof.
  unfold box_gates, n_params. destruct n as [|[|n]]; [reflexivity| |].
  - unfold single_gates. rewrite flat_map_concat_map, map_map. cbn. generalize (seq 0 (a_single A)). intros l. induction l; cbn; congruence.
  - unfold ansatz_gates. rewrite flat_map_app. set (k := layer_params (a_kind A) (S (S n))).
    assert (E2 : flat_map gate_params match a_kind A with IQP => match a_layers A with 0 => [] | S _ => each (S (S n)) (fun _ => gH) end | _ => [] end = []).
    { destruct (a_kind A), (a_layers A); try reflexivity. rewrite each_params. now apply params_none. }
    etransitivity; [|exact (@flat_map_rows _ (sym label) k (a_layers A) 0)]. match goal with |- ?a ++ ?b = _ => replace b with (@nil param) by (symmetry; exact E2) end. rewrite app_nil_r.
    rewrite flat_map_flat. generalize (seq 0 (a_layers A)). intros ls. induction ls as [|l ls IH]; [reflexivity|]. cbn [flat_map]. rewrite IH, layer_params_ok by lia. reflexivity.
Qed.
(** ** rotation *)
Lemma rotw_app z s t : rotw z (s ++ t) = if Z.odd z then rotw z t ++ rotw z s else rotw z s ++ rotw z t.
Proof. unfold rotw. destruct (Z.odd z); auto. apply rev_app_distr. Qed.
Lemma rev_repeat_qb n : repeat Qb n = rev (repeat Qb n).
Proof. induction n; [reflexivity|]. cbn [repeat rev]. rewrite <- IHn. clear. induction n; [reflexivity|]. cbn. congruence. Qed.
Lemma rotw_repeat z n : rotw z (repeat Qb n) = repeat Qb n.
Proof. unfold rotw. destruct (Z.odd z); auto. symmetry. apply rev_repeat_qb. Qed.
Lemma rotw_nil z : rotw z [] = []. Proof. unfold rotw. now destruct (Z.odd z). Qed.
Lemma rotw_one z a : rotw z [a] = [a]. Proof. unfold rotw. now destruct (Z.odd z). Qed.
Lemma q_rot_ends z b : q_dom (q_rot z b) = rotw z (q_dom b) /\ q_cod (q_rot z b) = rotw z (q_cod b).
Proof.
  assert (L : forall t, List.length (rotw z t) = List.length t) by (intros; unfold rotw; destruct (Z.odd z); auto using rev_length).
  induction b; cbn [q_rot]; try (cbn; rewrite ?rotw_nil, ?rotw_one; auto; fail).
  - destruct a; cbn; rewrite ?rotw_one; auto; destruct (Z.odd z); auto.
  - destruct IHb as [E1 E2]. destruct (Z.odd z) eqn:Ez; cbn [q_dom q_cod]; rewrite ?E1, ?L, ?rotw_repeat; split; auto; f_equal; lia.
  - unfold rotw. destruct (Z.odd z); auto.
  - destruct IHb as [E1 E2]. cbn. auto.
Qed.
Lemma qrotate_chain z ls : forall s t, gchain q_dom q_cod s ls t -> gchain q_dom q_cod (rotw z s) (map (q_rot_layer z) ls) (rotw z t).
Proof.
  induction ls as [|[[l b] r] ls IH]; intros s t; cbn [gchain map]; [congruence|]. intros [-> C]. apply IH in C. unfold q_rot_layer at 1. destruct (q_rot_ends z b) as [E1 E2].
  rewrite !rotw_app in *. destruct (Z.odd z); cbn [gchain]; rewrite E1, E2, ?app_assoc in *; split; auto.
Qed.
Lemma qrotate_typed z d s t : qtyped d s t -> qtyped (qrotate z d) (rotw z s) (rotw z t).
Proof. intros (W & <- & <-). split; [|split; reflexivity]. unfold gwf in *. cbn. now apply qrotate_chain. Qed.
(** ** cups, caps, spiders as circuits *)
Lemma unit_ring : ring_theory tt tt (fun _ _ => tt) (fun _ _ => tt) (fun _ _ => tt) (fun _ => tt) eq.
Proof. constructor; intros; repeat match goal with x : unit |- _ => destruct x end; reflexivity. Qed.
Definition ubase (b : qbox) : oper unit := fun _ _ => tt.
Lemma ubase_ok : interp_ok ubase. Proof. intros b psi phi H x L. reflexivity. Qed.
Lemma ubase_concrete : concrete tt (fun _ _ => tt) (fun _ _ => tt) (fun _ _ => tt) tt tt ubase.
Proof. unfold concrete, ubase. repeat split; intros; repeat match goal with |- context [?f ?x] => destruct (f x) end; try destruct b; auto; destruct (psi _); auto. Qed.
Lemma cup_typed n : exists D, generate_cup (qubits n) (qubits n) = Ok D /\ qtyped D (qubits n ++ qubits n) [].
Proof. destruct (@cup_all _ _ _ _ _ _ _ _ _ unit_ring eq_refl _ ubase_ok ubase_concrete n) as (D & E & T & _). eauto. Qed.
Lemma cap_typed n : exists D, generate_cap (qubits n) (qubits n) = Ok D /\ qtyped D [] (qubits n ++ qubits n).
Proof. destruct (@cap_all _ _ _ _ _ _ _ _ _ unit_ring eq_refl _ ubase_ok ubase_concrete n) as (D & E & T & _). eauto. Qed.
Lemma pow_qubits k n : List.concat (repeat (qubits k) n) = qubits (n * k).
Proof. induction n; cbn [repeat List.concat Nat.mul]; [reflexivity|]. now rewrite IHn, qubits_app. Qed.
Lemma spider_typed k i o fuel : k <= 1 \/ (i = 1 /\ o = 1) -> fuel > S (S (S (i + o))) -> exists D, generate_spider fuel (qubits k) i o = Ok D /\ qtyped D (qubits (i * k)) (qubits (o * k)).
Proof.
  intros H F. destruct ((i =? 1) && (o =? 1)) eqn:E1.
  - apply andb_true_iff in E1 as [E1 E2]. apply Nat.eqb_eq in E1, E2. subst. exists (qid (qubits k)). split; [destruct fuel; [lia|reflexivity]|]. rewrite !Nat.mul_1_l. apply gtyped_id.
  - assert (k <= 1) as Hk. { destruct H as [|[-> ->]]; auto. discriminate. } destruct k as [|[|]]; [| |lia].
    + exists (qid []). split; [destruct fuel; [lia|]; cbn; now rewrite E1|]. rewrite !Nat.mul_0_r. apply gtyped_id.
    + destruct (@spider_all _ _ _ _ _ _ _ _ _ unit_ring eq_refl _ ubase_ok ubase_concrete i o fuel F) as (D & E & T & _). exists D. rewrite !Nat.mul_1_r. auto.
Qed.
(** ** daggers swap the ends when self-adjoint boxes are square *)
Lemma sa_dag b : sa_ok b -> sa_ok (q_dag b) /\ q_dom (q_dag b) = q_cod b /\ q_cod (q_dag b) = q_dom b.
Proof.
  induction b; cbn; auto.
  - destruct selfadj; cbn; intros; subst; auto.
  - intros [H1 H2]. destruct (IHb H1) as (I1 & I2 & I3). rewrite I2, I3, H2. auto.
Qed.
Lemma sa_rot z b : sa_ok b -> sa_ok (q_rot z b).
Proof.
  induction b; cbn [q_rot sa_ok]; auto.
  - destruct selfadj; auto. intros. now subst.
  - destruct a; cbn; destruct (Z.odd z); auto.
  - intros [H1 H2]. destruct (Z.odd z); cbn; auto. destruct (q_rot_ends z b) as [E1 E2]. split; auto. rewrite E1, E2. unfold rotw. destruct (Z.odd z); rewrite ?rev_length; auto.
  - destruct (Z.odd z); cbn; auto.
Qed.
Definition allsa (d : qdiag) : Prop := Forall sa_ok (gboxes d).
Lemma sa_then a b c : qthen a b = Ok c -> allsa a -> allsa b -> allsa c.
Proof. unfold qthen, gthen. destruct gteqb; [|discriminate]. intros [= <-]. unfold allsa, gboxes. cbn. rewrite map_app. intros. now apply Forall_app. Qed.
Lemma sa_tensor a b : allsa a -> allsa b -> allsa (gtensor a b). Proof. unfold allsa. rewrite gboxes_tensor. intros. now apply Forall_app. Qed.
Lemma sa_id t : allsa (qid t). Proof. constructor. Qed.
Lemma sa_box b : sa_ok b -> allsa (qb b). Proof. repeat constructor; auto. Qed.
Lemma sa_at d x i c : qthen_at d x i = Ok c -> allsa d -> allsa x -> allsa c.
Proof. unfold qthen_at, gthen_at. intros E Hd Hx. apply (sa_then E); auto. repeat apply sa_tensor; auto; constructor. Qed.
Lemma sa_fold X (f : qdiag -> X -> res qdiag) l : (forall d x c, In x l -> allsa d -> f d x = Ok c -> allsa c) -> forall d c, allsa d -> foldM f l d = Ok c -> allsa c.
Proof.
  induction l as [|x l IH]; intros H d c Hd; cbn; [now intros [= <-]|]. destruct (f d x) eqn:E; cbn; [|discriminate]. apply IH; [intros; eapply H; eauto; now right|]. eapply H; eauto. now left.
Qed.
Lemma sa_dagger d : allsa d -> allsa (qdagger d).
Proof.
  unfold qdagger, gdagger, allsa, gboxes. destruct d as [s t [|x ls]]; cbn [glayers]; auto. intros H. rewrite map_map. cbn [gl_box fst snd]. rewrite Forall_map. apply Forall_rev. rewrite Forall_map in H. eapply Forall_impl; [|exact H]. intros y Hy. now apply sa_dag.
Qed.
Lemma sa_rotate z d : allsa d -> allsa (qrotate z d).
Proof. unfold allsa, gboxes. cbn. rewrite map_map. rewrite !Forall_map. apply Forall_impl. intros [[l b] r]. unfold q_rot_layer. destruct (Z.odd z); cbn; apply sa_rot. Qed.
Lemma sa_tensor_all ds : Forall allsa ds -> forall d, allsa d -> allsa (gtensor_list d ds).
Proof. induction 1; intros d Hd; cbn; auto. apply IHForall. now apply sa_tensor. Qed.
Lemma sa_CX : sa_ok gCX. Proof. repeat split. Qed.
Lemma sa_H : sa_ok gH. Proof. reflexivity. Qed.
Lemma sa_cup l r D : generate_cup l r = Ok D -> allsa D.
Proof.
  unfold generate_cup. destruct (negb _); [discriminate|]. destruct atomic_cup as [ac|] eqn:E; [|discriminate]. cbn [bind]. assert (allsa ac). { vm_compute in E. inversion E. repeat constructor. }
  apply sa_fold; [|apply sa_id]. intros. eapply sa_at; eauto.
Qed.
Lemma sa_cap l r D : generate_cap l r = Ok D -> allsa D.
Proof.
  unfold generate_cap. destruct (negb _); [discriminate|]. destruct atomic_cap as [ac|] eqn:E; [|discriminate]. cbn [bind]. assert (allsa ac). { vm_compute in E. inversion E. repeat constructor. }
  apply sa_fold; [|apply sa_id]. intros. eapply sa_at; eauto.
Qed.
Lemma sa_swap l r D : gswap wire_eqb q_dom q_cod QSwap l r = Ok D -> allsa D.
Proof.
  unfold gswap. intros E.
  assert (G : foldM (fun d '(start, ob) => foldM (fun d '(i, a) => gthen_at wire_eqb d (gbox q_dom q_cod (QSwap a ob)) (Z.of_nat (start + i))) (rev (enum 0 l)) d) (enum 0 r) (gid (l ++ r)) = Ok D -> allsa D).
  { apply sa_fold; [|constructor]. intros d [s o] c _ Hd. apply sa_fold; auto. intros d' [i a] c' _ Hd' E'. apply (sa_at E'); auto. now apply sa_box. }
  destruct l as [|x [|]], r as [|y [|]]; auto. inversion E. now apply sa_box.
Qed.
Lemma sa_spider fuel t : forall i o D, generate_spider fuel t i o = Ok D -> allsa D.
Proof.
  induction fuel as [|f IH]; intros i o D; [discriminate|]. cbn [generate_spider].
  assert (B : forall r (k : qdiag -> res qdiag), bind r k = Ok D -> exists x, r = Ok x /\ k x = Ok D) by (intros [x|] k; cbn; [eauto|discriminate]).
  repeat match goal with |- (if ?c then _ else _) = _ -> _ => destruct c end; try discriminate; try (intros [= <-]; apply sa_id).
  - intros E. apply (sa_then E); [apply sa_tensor|]; apply sa_box; first [exact I|reflexivity].
  - intros E. apply (sa_then E); [apply sa_box, sa_CX|apply sa_tensor; [apply sa_id|now apply sa_box]].
  - destruct (generate_spider f t o i) eqn:E; [|discriminate]. intros [= <-]. apply sa_dagger. eauto.
  - intros E. apply B in E as (x & E1 & E). apply B in E as (y & E2 & E). apply (sa_then E); eauto.
  - intros E. apply B in E as (x & E1 & E). apply B in E as (y & E2 & E). apply (sa_then E); eauto. apply sa_tensor; eauto using sa_id.
  - intros E. apply B in E as (x & E1 & E). apply B in E as (y & E2 & E). apply (sa_then E); eauto. apply sa_tensor; eauto.
Qed.
Lemma gchain_dag_sa ls : forall s t, Forall (fun x => sa_ok (gl_box x)) ls -> gchain q_dom q_cod s ls t -> gchain q_dom q_cod t (map (fun x => (gl_left x, q_dag (gl_box x), gl_right x)) (rev ls)) s.
Proof.
  induction ls as [|[[l b] r] ls IH]; intros s t F; cbn [gchain rev]; [congruence|]. inversion F; subst. cbn [gl_box fst snd] in *. intros [-> C]. rewrite map_app. apply gchain_app. exists (l ++ q_cod b ++ r). split; [now apply IH|].
  destruct (sa_dag H1) as (_ & E1 & E2). cbn. rewrite E1, E2. auto.
Qed.
Lemma qdagger_typed d s t : allsa d -> qtyped d s t -> qtyped (qdagger d) t s.
Proof.
  intros F (W & <- & <-). unfold qdagger, gdagger. destruct d as [a c ls]. unfold allsa, gboxes in F. cbn [glayers gdom gcod] in *. destruct ls as [|x ls]; [unfold gwf in W; cbn in W; subst; repeat split|].
  split; [|split; reflexivity]. unfold gwf in *. cbn [glayers gdom gcod] in *. apply gchain_dag_sa; auto. now rewrite Forall_map in F.
Qed.
Lemma sa_base b : one_qubit (ctl_base b) -> sa_ok (ctl_base b) -> sa_ok b /\ List.length (q_dom b) = List.length (q_cod b).
Proof. induction b; cbn [ctl_base]; try (intros [[E1 E2] _] H; split; [exact H|]; rewrite E1, E2; reflexivity). intros H1 H2. destruct (IHb H1 H2). cbn. auto. Qed.
Lemma sa_gates A n label : Forall (fun g => sa_ok (fst (fst g))) (box_gates A n label).
Proof.
  assert (E : forall n f, (forall i, sa_ok (f i)) -> Forall (fun g => sa_ok (fst (fst g))) (each n f)) by (intros; apply Forall_map, Forall_forall; intros; cbn; auto).
  assert (C : forall is f c t, (forall i, sa_ok (f i)) -> Forall (fun g => sa_ok (fst (fst g))) (ctl is f c t)) by (intros; apply Forall_map, Forall_forall; intros; cbn; auto).
  unfold box_gates. destruct n as [|[|n]]; [constructor| |].
  - apply Forall_map, Forall_forall. intros; exact I.
  - unfold ansatz_gates. apply Forall_app. split.
    + apply Forall_forall. intros x Hx. apply in_flat_map in Hx as (l & _ & Hx). revert x Hx. apply Forall_forall. generalize (S (S n)). intros m. destruct (a_kind A); cbn [layer_gates]; repeat (apply Forall_app; split); try (apply E; intros; first [exact I|reflexivity]); try (apply C; intros; first [exact I|reflexivity]).
      apply Forall_forall. intros x Hx. apply in_flat_map in Hx as (q & _ & Hx). cbn in Hx. intuition subst; exact I.
    + destruct (a_kind A), (a_layers A); try (apply E; reflexivity); constructor.
Qed.
Lemma sa_built n c gs : built n c gs -> Forall (fun g => sa_ok (fst (fst g))) gs -> allsa c.
Proof.
  intros (_ & F & E) H. rewrite <- E in H. unfold allsa, gboxes. rewrite Forall_map in *. rewrite Forall_forall in *. intros x Hx. apply sa_base; [apply (F x Hx)|]. apply (H x Hx).
Qed.
Lemma sa_ar A label dom cod anc : a_rots A <> [] -> qtyped (a_basis A) (qubits 1) (qubits 1) -> allsa (a_basis A) -> (Nat.max dom cod + anc >= 2 -> ranges_ok (a_kind A) (a_layers A) (Nat.max dom cod + anc)) ->
  exists c, ar A label dom cod anc = Ok c /\ qtyped c (qubits dom) (qubits cod) /\ allsa c.
Proof.
  intros H1 H2 H3 H4. destruct (@ar_layers A label dom cod anc H1 H2 H4) as (c & c0 & E & T & B & L). exists c. split; auto. split; auto. unfold allsa, gboxes. rewrite L, !map_app. repeat (apply Forall_app; split).
  - apply (sa_tensor (sa_id _)). apply sa_tensor_all; [|constructor]. apply Forall_forall. intros x Hx. apply repeat_spec in Hx. subst. now apply sa_box.
  - apply (sa_built B), sa_gates.
  - unfold post_layers. destruct (a_discard A).
    + apply (sa_tensor (sa_id _)). apply sa_tensor_all; [|constructor]. apply Forall_forall. intros x Hx. apply repeat_spec in Hx. subst. now apply sa_box.
    + rewrite map_app. apply Forall_app. split.
      * apply (@sa_tensor_all (repeat (a_basis A) (n_extras dom cod anc))); [|constructor]. apply Forall_forall. intros x Hx. apply repeat_spec in Hx. now subst.
      * apply (sa_tensor (sa_id _)). apply sa_tensor_all; [|constructor]. apply Forall_forall. intros x Hx. apply repeat_spec in Hx. subst. now apply sa_box.
Qed.
(** ** the functor *)
Section F.
  Variables (A : ansatz) (ob_map : list (string * nat)) (anc : box -> nat) (sz : string -> nat).
  Hypothesis HD : NoDup (map fst ob_map).
  Hypotheses (HR : a_rots A <> []) (HB : qtyped (a_basis A) (qubits 1) (qubits 1)) (HS : allsa (a_basis A)) (HG : match a_kind A with StrEnt (Some rs) => List.length rs = a_layers A | _ => True end).
  Notation cov := (covers ob_map sz). Notation nq := (n_qubits sz).
  Lemma lookup_in n k : In (n, k) ob_map -> lookup_ob ob_map n = Ok k.
  Proof.
    clear HR HB HG HS. revert HD. induction ob_map as [|[m j] l IH]; [contradiction|]. cbn. intros N. inversion N; subst. intros [[= -> ->]|H]; [now rewrite String.eqb_refl|].
    destruct (String.eqb_spec n m); auto. subst. exfalso. apply H1. apply in_map_iff. now exists (m, k).
  Qed.
  Lemma nq_app s t : nq (s ++ t) = nq s + nq t. Proof. unfold n_qubits. now rewrite map_app, list_sum_app. Qed.
  Lemma nq_rev t : nq (rev t) = nq t.
  Proof. induction t; [reflexivity|]. cbn [rev]. rewrite nq_app, IHt. unfold n_qubits at 2. cbn [map list_sum fold_right]. fold (nq t). change (nq (a :: t)) with (sz (fst a) + nq t). lia. Qed.
  Lemma nq_map z t : nq (map (rot_atom z) t) = nq t. Proof. unfold n_qubits. now rewrite map_map. Qed.
  Lemma nq_rot z t : nq (rot z t) = nq t. Proof. unfold rot. destruct (Z.odd z); rewrite nq_map, ?nq_rev; auto. Qed.
  Lemma Q_atom_ok a : In (fst a, sz (fst a)) ob_map -> Q_atom (a_ob ob_map) a = Ok (qubits (sz (fst a))).
  Proof. intros H. unfold Q_atom, a_ob. rewrite (lookup_in H). cbn [rmap]. unfold qubits. rewrite rotw_repeat. now destruct (snd a =? 0)%Z. Qed.
  Lemma Q_atoms_ok t : cov t -> mapM (Q_atom (a_ob ob_map)) t = Ok (map (fun a => qubits (sz (fst a))) t).
  Proof. induction 1; [reflexivity|]. cbn [mapM map]. rewrite Q_atom_ok by auto. cbn [bind]. now rewrite IHForall. Qed.
  Lemma Q_ty_ok t : cov t -> Q_ty (a_ob ob_map) t = Ok (qubits (nq t)).
  Proof. intros H. unfold Q_ty. rewrite Q_atoms_ok by auto. cbn [rmap]. f_equal. clear. unfold n_qubits. induction t; [reflexivity|]. cbn [map List.concat list_sum fold_right]. now rewrite IHt, qubits_app. Qed.
  Lemma ob_size_ok t : cov t -> ob_size ob_map t = Ok (nq t).
  Proof. intros H. unfold ob_size. rewrite Q_atoms_ok by auto. cbn [bind]. f_equal. rewrite map_map. unfold n_qubits. f_equal. apply map_ext. intros. apply len_qubits. Qed.
  Lemma cov_app s t : cov (s ++ t) <-> cov s /\ cov t. Proof. apply Forall_app. Qed.
  Lemma cov_rot z t : cov t -> cov (rot z t).
  Proof. unfold rot, covers. intros H. rewrite Forall_forall in *. intros x Hx. apply in_map_iff in Hx as (y & <- & Hy). apply (H y). destruct (Z.odd z); [now apply in_rev|auto]. Qed.
  Definition circ (D : qdiag) (d c : ty) : Prop := qtyped D (qubits (nq d)) (qubits (nq c)) /\ allsa D.
  Lemma check_ok d c D r : cov d -> cov c -> r = Ok D -> circ D d c -> exists D, q_check (a_ob ob_map) d c r = Ok D /\ circ D d c.
  Proof.
    intros Cd Cc -> ((W & E1 & E2) & S1). exists D. unfold q_check. cbn [bind]. rewrite !Q_ty_ok by auto. cbn [bind]. rewrite E1, E2, !(proj2 (wires_eqb_ok _ _) eq_refl). cbn. split; auto. repeat split; auto.
  Qed.
  Lemma a_ar_ok b : cov (b_dom b) -> cov (b_cod b) -> ranges_fit (a_kind A) (Nat.max (nq (b_dom b)) (nq (b_cod b)) + anc b) -> exists D, a_ar A ob_map anc b = Ok D /\ circ D (b_dom b) (b_cod b).
  Proof.
    intros Cd Cc R. unfold a_ar. rewrite !ob_size_ok by auto. cbn [bind].
    destruct (@sa_ar A (summarise b) (nq (b_dom b)) (nq (b_cod b)) (anc b)) as (c & E & T & S1); auto; [|unfold circ; eauto].
    intros Hn. revert R HG. unfold ranges_fit, ranges_ok. destruct (a_kind A) as [| | | |[rs|]| |]; auto.
  Qed.
  Lemma basic_ok b : (match b with Box _ _ _ _ | Word _ _ _ => True | _ => False end) -> cov (b_dom b) -> cov (b_cod b) ->
    ranges_fit (a_kind A) (Nat.max (nq (b_dom b)) (nq (b_cod b)) + anc (b_unwind b)) -> exists D, Q_basic (a_ob ob_map) (a_ar A ob_map anc) b = Ok D /\ circ D (b_dom b) (b_cod b).
  Proof.
    intros B Cd Cc R. unfold Q_basic. destruct (Z.eqb_spec (b_z b) 0) as [Ez|Ez].
    - assert (U : b_unwind b = b). { unfold b_unwind. rewrite Ez. destruct b; try contradiction; cbn in *; rewrite !rot_0; subst; reflexivity. } rewrite U in R. now apply a_ar_ok.
    - assert (D1 : nq (b_dom (b_unwind b)) = nq (b_dom b)) by (unfold b_unwind; now rewrite b_dom_rotate, nq_rot). assert (D2 : nq (b_cod (b_unwind b)) = nq (b_cod b)) by (unfold b_unwind; now rewrite b_cod_rotate, nq_rot).
      assert (C1 : cov (b_dom (b_unwind b))) by (unfold b_unwind; rewrite b_dom_rotate; now apply cov_rot). assert (C2 : cov (b_cod (b_unwind b))) by (unfold b_unwind; rewrite b_cod_rotate; now apply cov_rot).
      destruct (@a_ar_ok (b_unwind b)) as (D & E & T); auto. { now rewrite D1, D2. } destruct (check_ok C1 C2 E T) as (D' & E' & T' & S'). rewrite E'. cbn [rmap]. eexists. split; [reflexivity|].
      apply (qrotate_typed (b_z b)) in T'. unfold qubits in *. rewrite !rotw_repeat in T'. rewrite D1, D2 in T'. split; auto. now apply sa_rotate.
  Qed.
  Lemma nq_rep a n : nq (repeat a n) = n * sz (fst a). Proof. unfold n_qubits. induction n; cbn; auto. Qed.
  Lemma box_circ b : box_ok b -> fits ob_map sz (a_kind A) anc b -> cov (b_dom b) -> cov (b_cod b) -> exists D, Q_box (a_ob ob_map) (a_ar A ob_map anc) b = Ok D /\ circ D (b_dom b) (b_cod b).
  Proof.
    induction b; intros Ho Hf Cd Cc; try contradiction Hf.
    - destruct (@basic_ok (Box name bdom bcod z)) as (D & E & T); auto. exact (check_ok Cd Cc E T).
    - destruct (@basic_ok (Word name wcod z)) as (D & E & T); auto. exact (check_ok Cd Cc E T).
    - cbn [Q_box]. assert (Cc' := Cc). cbn in Cc'. inversion Cc' as [|? ? C1 C2']; subst. inversion C2' as [|? ? C2 _]; subst. assert (E : fst l = fst r) by (cbn in Ho; subst; destruct rv; reflexivity).
      rewrite !Q_ty_ok by (repeat constructor; auto). cbn [bind]. assert (N : nq [l] = nq [r]) by (unfold n_qubits; cbn; now rewrite E). rewrite N. destruct (cap_typed (nq [r])) as (D & ED & T). eapply check_ok; eauto. split; [|now apply sa_cap in ED].
      cbn [b_dom b_cod b_end]. change [l; r] with ([l] ++ [r])%list. rewrite nq_app, N, <- qubits_app. exact T.
    - cbn [Q_box]. assert (Cc' := Cd). cbn in Cc'. inversion Cc' as [|? ? C1 C2']; subst. inversion C2' as [|? ? C2 _]; subst. assert (E : fst l = fst r) by (cbn in Ho; subst; destruct rv; reflexivity).
      rewrite !Q_ty_ok by (repeat constructor; auto). cbn [bind]. assert (N : nq [l] = nq [r]) by (unfold n_qubits; cbn; now rewrite E). rewrite N. destruct (cup_typed (nq [r])) as (D & ED & T). eapply check_ok; eauto. split; [|now apply sa_cup in ED].
      cbn [b_dom b_cod b_end]. change [l; r] with ([l] ++ [r])%list. rewrite nq_app, N, <- qubits_app. exact T.
    - cbn [Q_box]. assert (Cc' := Cd). cbn in Cc'. inversion Cc' as [|? ? C1 C2']; subst. inversion C2' as [|? ? C2 _]; subst. rewrite !Q_ty_ok by (repeat constructor; auto). cbn [bind].
      destruct (@gswap_typed wire qbox wire_eqb q_dom q_cod wire_eqb_ok QSwap (fun _ => true) Qb (fun _ _ => eq_refl) (fun _ _ => eq_refl) (fun _ _ => eq_refl) (qubits (nq [l])) (qubits (nq [r]))) as (D & ED & T). eapply check_ok; eauto. split; [|now apply sa_swap in ED].
      cbn [b_dom b_cod b_end]. change [l; r] with ([l] ++ [r])%list. change [r; l] with ([r] ++ [l])%list. rewrite !nq_app, <- !qubits_app. exact T.
    - cbn [Q_box]. cbn in Hf. destruct Hf as [Hi Hs]. rewrite Q_ty_ok by (repeat constructor; auto). cbn [bind]. assert (N : nq [t] = sz (fst t)) by (unfold n_qubits; cbn; lia).
      destruct (@spider_typed (nq [t]) n m (n + m + 4)) as (D & ED & T); [now rewrite N|lia|]. eapply check_ok; eauto. split; [|now apply sa_spider in ED]. cbn [b_dom b_cod b_end]. rewrite !nq_rep, <- N. exact T.
    - cbn [Q_box]. cbn [b_dom b_cod b_end] in *. destruct (IHb Ho Hf Cc Cd) as (D & E & T & S1). eapply check_ok; eauto; [rewrite E; reflexivity|]. split; [now apply qdagger_typed|now apply sa_dagger].
  Qed.
  Lemma layers_circ ls : forall s t acc d0, chain s ls t -> All (fun x => box_ok (l_box x)) ls -> cov s -> Forall (fun x => fits ob_map sz (a_kind A) anc (l_box x) /\ cov (l_cod x)) ls -> circ acc d0 s ->
    exists D, foldM (Q_step (a_ob ob_map) (a_ar A ob_map anc)) ls acc = Ok D /\ circ D d0 t.
  Proof.
    induction ls as [|[[l b] r] ls IH]; intros s t acc d0 C Ho Cs F Ta; cbn [foldM]; cbn in C.
    - subst. eauto.
    - destruct C as [-> C]. inversion F as [|? ? [F1 F2] F']; subst. cbn [l_box l_dom l_cod] in *. destruct Ho as [Ho1 Ho2]. cbn [l_box] in Ho1.
      rewrite !cov_app in Cs. destruct Cs as (Cl & Cd & Cr). assert (F2' := F2). rewrite !cov_app in F2'. destruct F2' as (_ & Cc & _).
      cbn [Q_step]. rewrite !Q_ty_ok by auto. cbn [bind]. destruct (box_circ Ho1 F1 Cd Cc) as (D & E & T & S1). rewrite E. cbn [bind].
      destruct Ta as [Ta Sa]. assert (TT : qtyped (qtensor (qtensor (qid (qubits (nq l))) D) (qid (qubits (nq r)))) (qubits (nq (l ++ b_dom b ++ r))) (qubits (nq (l ++ b_cod b ++ r)))).
      { rewrite !nq_app, <- !qubits_app, !app_assoc. apply gtyped_tensor; [apply gtyped_tensor; [apply gtyped_id|exact T]|apply gtyped_id]. }
      destruct (gtyped_then wire_eqb_ok Ta TT) as (c & E' & T' & L). match goal with |- context [bind ?x _] => replace x with (@Ok qdiag c) by (symmetry; exact E') end. cbn [bind].
      eapply IH; eauto. split; [exact T'|]. apply (sa_then E'); auto. repeat apply sa_tensor; auto; constructor.
  Qed.
  Lemma diag_circ d : wf d -> cov (dom d) -> Forall (fun x => fits ob_map sz (a_kind A) anc (l_box x) /\ cov (l_cod x)) (layers d) ->
    exists D, apply_ansatz A ob_map anc d = Ok D /\ circ D (dom d) (cod d).
  Proof.
    intros [C Ho] Cd F. unfold apply_ansatz.
    assert (NF : existsb is_frame (boxes d) = false).
    { unfold boxes. clear -F. induction F as [|[[l b] r] ls [Hf _] _ IH]; [reflexivity|]. cbn. rewrite IH, orb_false_r. cbn in Hf. destruct b; auto; contradiction. }
    rewrite NF. unfold Q_diag.
    assert (Cc : cov (cod d)). { revert C F Cd. clear. generalize (dom d). induction (layers d) as [|[[l b] r] ls IH]; intros s C F Cs; cbn in C; [now subst|]. destruct C as [_ C]. inversion F as [|? ? [_ H] F']; subst. exact (IH _ C F' H). }
    destruct (layers_circ (acc := qid (qubits (nq (dom d)))) (d0 := dom d) C Ho Cd F) as (D & E & T). { split; [apply gtyped_id|constructor]. }
    destruct (layers d) as [|x ls] eqn:El.
    - rewrite Q_ty_ok by auto. cbn [rmap]. cbn in E. inversion E; subst. eapply check_ok; eauto.
    - rewrite Q_ty_ok by auto. cbn [bind]. eapply check_ok; eauto.
  Qed.
End F.
Lemma make_ok k L s d rots basis A : make k L s d rots basis = Ok A -> qtyped basis (qubits 1) (qubits 1) -> Forall sa_ok (gboxes basis) ->
  a_kind A = k /\ a_layers A = L /\ a_single A = s /\ a_discard A = d /\ a_rots A <> [] /\ qtyped (a_basis A) (qubits 1) (qubits 1) /\ allsa (a_basis A) /\ match a_kind A with StrEnt (Some rs) => List.length rs = a_layers A | _ => True end.
Proof.
  intros E T F. assert (TI : qtyped (Idn 1) (qubits 1) (qubits 1)) by apply gtyped_id. assert (FI : allsa (Idn 1)) by constructor.
  unfold make in E. destruct k as [| | | |[rs|]| |]; try (destruct (Nat.eqb_spec (List.length rs) L); cbn in E); try discriminate; inversion E; subst; cbn; repeat split; auto; try discriminate; try apply T; try apply TI; destruct rots; discriminate.
Qed.
Lemma fit_ok A n : match a_kind A with StrEnt (Some rs) => List.length rs = a_layers A | _ => True end -> ranges_fit (a_kind A) n -> n >= 2 -> ranges_ok (a_kind A) (a_layers A) n.
Proof. unfold ranges_fit, ranges_ok. destruct (a_kind A) as [| | | |[rs|]| |]; auto. Qed.
Lemma ar_params A label dom cod anc : a_rots A <> [] -> qtyped (a_basis A) (qubits 1) (qubits 1) -> flat_map params_of (gboxes (a_basis A)) = [] -> (Nat.max dom cod + anc >= 2 -> ranges_ok (a_kind A) (a_layers A) (Nat.max dom cod + anc)) ->
  exists c, ar A label dom cod anc = Ok c /\ flat_map params_of (gboxes c) = map (sym label) (seq 0 (n_params A (Nat.max dom cod + anc))).
Proof.
  intros H1 H2 H3 H4. destruct (@ar_layers A label dom cod anc H1 H2 H4) as (c & c0 & E & T & B & L). exists c. split; auto. unfold gboxes. rewrite L, !map_app, !flat_map_app.
  assert (R : forall b m, params_of b = [] -> flat_map params_of (repeat b m) = []) by (intros b m Hb; induction m; cbn; rewrite ?Hb; auto).
  assert (P1 : flat_map params_of (map gl_box (pre_layers dom cod anc)) = []). { unfold pre_layers. etransitivity; [exact (f_equal (flat_map params_of) (@boxes_col dom (QKet false) _))|]. now apply R. }
  assert (P2 : flat_map params_of (map gl_box (post_layers A dom cod anc)) = []).
  { unfold post_layers. destruct (a_discard A).
    - etransitivity; [exact (f_equal (flat_map params_of) (@boxes_col cod QDisc _))|]. now apply R.
    - rewrite map_app, flat_map_app. replace (flat_map params_of (map gl_box (glayers (qtensor (Idn cod) (tensor_all (repeat (qb (QBra false)) (n_extras dom cod anc))))))) with (@nil param); [|symmetry; etransitivity; [exact (f_equal (flat_map params_of) (@boxes_col cod (QBra false) _))|]; now apply R].
      rewrite app_nil_r. etransitivity; [exact (f_equal (flat_map params_of) (@boxes_basis cod (a_basis A) _))|]. generalize (n_extras dom cod anc). intros m. induction m; [reflexivity|]. cbn [repeat List.concat]. now rewrite flat_map_app, H3. }
  match goal with |- ?a ++ ?b ++ ?c' = _ => replace a with (@nil param) by (symmetry; exact P1); replace c' with (@nil param) by (symmetry; exact P2) end. rewrite app_nil_r. cbn [app]. etransitivity; [exact (built_params B)|]. apply box_gates_params.
Qed.
Lemma syms_nodup label n : NoDup (map (sym label) (seq 0 n)).
Proof. apply FinFun.Injective_map_NoDup; [|apply seq_NoDup]. intros i j E. now apply sym_inj in E. Qed.
(** ** rotated gates act on the mirrored qubits *)
Lemma rot_base z b : Z.odd z = true -> ctl_base (q_rot z b) = q_rot z (ctl_base b).
Proof. intros E. induction b; cbn [q_rot ctl_base]; auto; rewrite ?E; cbn [ctl_base]; auto. destruct a; auto; rewrite E; auto. Qed.
Lemma rot_dists z b : Z.odd z = true -> one_qubit (ctl_base b) -> dists_nonzero b -> one_qubit (ctl_base (q_rot z b)) /\ dists_nonzero (q_rot z b).
Proof.
  intros E H D. split.
  - rewrite rot_base by auto. destruct H as [[H1 H2] H3]. destruct (q_rot_ends z (ctl_base b)) as [E1 E2]. split; [split; rewrite ?E1, ?E2, ?H1, ?H2; apply rotw_repeat|]. destruct (ctl_base b); cbn; rewrite ?E; auto. destruct a; cbn; rewrite ?E; cbn; auto.
  - clear H. induction b; cbn [q_rot]; auto; try (cbn; auto; fail). + destruct a; cbn; auto; rewrite E; cbn; auto. + rewrite E. destruct D. cbn. split; [lia|auto]. + rewrite E. exact I.
Qed.
Lemma rot_place z b : Z.odd z = true -> one_qubit (ctl_base b) -> dists_nonzero b -> forall l r, let N := l + List.length (q_dom b) + r in
  place (q_rot z b) r = (rev (map (fun i => N - 1 - i) (fst (place b l))), N - 1 - snd (place b l)).
Proof.
  intros E. induction b; intros H D l r N.
  2: destruct H as [[H1 _] _]; cbn in H1; inversion H1; destruct a; cbn [q_rot]; rewrite ?E; cbn; f_equal; subst N; cbn; lia.
  2: { cbn [dists_nonzero ctl_base] in *. destruct D as [D0 D]. subst N. cbn [q_rot q_dom]. rewrite E, repeat_length. destruct (q_rot_ends z b) as [E1 _].
    assert (L : List.length (q_dom (q_rot z b)) = List.length (q_dom b)) by (rewrite E1; unfold rotw; destruct (Z.odd z); auto using rev_length).
    cbn [place]. destruct (Z.ltb_spec 0 distance).
    - destruct (Z.ltb_spec 0 (- distance)); [lia|]. specialize (IHb H D (l + Z.to_nat distance) r). cbv zeta in IHb. rewrite IHb. destruct (place b (l + Z.to_nat distance)) as [cs t]. cbn [fst snd map rev].
      replace (l + Z.to_nat distance + List.length (q_dom b) + r) with (l + (List.length (q_dom b) + Z.abs_nat distance) + r) by lia. f_equal. f_equal. f_equal. rewrite L. lia.
    - destruct (Z.ltb_spec 0 (- distance)); [|lia]. specialize (IHb H D l (r + Z.to_nat (- distance))). cbv zeta in IHb. rewrite IHb. destruct (place b l) as [cs t]. cbn [fst snd]. rewrite map_app, rev_app_distr. cbn [map rev app].
      replace (l + List.length (q_dom b) + (r + Z.to_nat (- distance))) with (l + (List.length (q_dom b) + Z.abs_nat distance) + r) by lia. f_equal. f_equal. lia. }
  all: destruct H as [[H1 _] _]; cbn [ctl_base] in H1; cbn [q_rot place fst snd map rev]; subst N; try (rewrite E; cbn [place]); rewrite ?H1; f_equal; cbn; lia.
Qed.
Lemma rotation z l b r : Z.odd z = true -> one_qubit (ctl_base b) -> dists_nonzero b -> let N := l + List.length (q_dom b) + r in
  ctl_base (q_rot z b) = q_rot z (ctl_base b) /\ exists cs t,
  (forall K (base : qbox -> oper K) psi x, interp_ok base -> List.length x = N -> q_layers (q_array base) [(qubits l, b, qubits r)] psi x = gate_at (q_array base (ctl_base b)) cs t psi x) /\
  (forall K (base : qbox -> oper K) psi x, interp_ok base -> List.length x = N -> q_layers (q_array base) [q_rot_layer z (qubits l, b, qubits r)] psi x = gate_at (q_array base (q_rot z (ctl_base b))) (map (fun i => N - 1 - i) cs) (N - 1 - t) psi x).
Proof.
  intros E H D N. split; [now apply rot_base|]. exists (fst (place b l)), (snd (place b l)). split; intros K base psi x HI L; cbn [q_layers].
  - rewrite len_qubits. apply place_sem; auto. subst N. lia.
  - unfold q_rot_layer. rewrite E. cbn [q_layers]. destruct (@rot_dists z b E H D) as [H' D']. destruct (q_rot_ends z b) as [E1 _].
    assert (L1 : List.length (q_dom (q_rot z b)) = List.length (q_dom b)) by (rewrite E1; unfold rotw; destruct (Z.odd z); auto using rev_length).
    unfold qubits at 1. rewrite rotw_repeat, repeat_length. rewrite place_sem; auto; [|subst N; lia]. rewrite rot_base by auto. rewrite (@rot_place z b E H D l r). fold N. cbn [fst snd]. unfold gate_at. 
    replace (forallb (fun c => bit_of c x) (rev (map (fun i => N - 1 - i) (fst (place b l))))) with (forallb (fun c => bit_of c x) (map (fun i => N - 1 - i) (fst (place b l)))); auto.
    apply eq_true_iff_eq. rewrite !forallb_forall. split; intros F c Hc; apply F; [now apply in_rev|now apply in_rev in Hc].
Qed.
