(** The circuit made for a box. *)
From Coq Require Import QArith DecimalString DecimalNat.
From Verif Require Import PyBase PyFacts TyModel DiagModel GDiag GDiagSpec GDiagFacts QModel QSpec QFacts QPlace QApply QGen TnFacts AnsatzModel AnsatzSpec AnsatzFacts AnsatzCirc DiagPerm.
Close Scope Q_scope. Set Implicit Arguments. Unset Strict Implicit.

Lemma zip_cycle_gen X Y (x0 : X) (all : list X) (f : nat -> Y) : all <> [] -> forall m s r, r <= List.length all -> r mod List.length all = s mod List.length all ->
  zip_cycle all (skipn r all) (map f (seq s m)) = map (fun i => (nth (i mod List.length all) all x0, f i)) (seq s m).
Proof.
  intros NE. assert (L0 : List.length all <> 0) by (destruct all; [congruence|discriminate]). induction m as [|m IH]; intros s r Hr E; cbn [seq map zip_cycle]; [reflexivity|].
  assert (Step : forall q, q < List.length all -> q = s mod List.length all -> exists y t, skipn q all = y :: t /\ y = nth (s mod List.length all) all x0 /\ t = skipn (S q) all).
  { intros q Hq ->. exists (nth (s mod List.length all) all x0), (skipn (S (s mod List.length all)) all). split; [|auto]. apply skipn_nth_error. now apply nth_error_nth'. }
  assert (Next : forall q, q < List.length all -> q = s mod List.length all -> S q mod List.length all = S s mod List.length all).
  { intros q Hq ->. rewrite <- (Nat.add_1_r s), <- (Nat.add_1_r (s mod _)). now rewrite Nat.add_mod_idemp_l. }
  destruct (Nat.eq_dec r (List.length all)) as [->|Hne].
  - rewrite skipn_all. rewrite Nat.mod_same in E by auto. destruct (Step 0) as (y & t & E1 & E2 & E3); [lia|auto|]. cbn [skipn] in E1. rewrite E1. rewrite <- E1, <- E2. f_equal. rewrite E3. apply IH; [lia|]. apply Next; auto. lia.
  - rewrite Nat.mod_small in E by lia. destruct (Step r) as (y & t & E1 & E2 & E3); [lia|auto|]. rewrite E1, <- E2, E3. f_equal. apply IH; [lia|]. apply Next; auto. lia.
Qed.
Lemma single_built rots m th : rots <> [] -> exists c, foldM (fun c '(r, s) => qthen c (qb (QRot r s))) (zip_cycle rots rots (map th (seq 0 m))) (Idn 1) = Ok c /\ built 1 c (single_gates rots m th).
Proof.
  intros NE. assert (E := @zip_cycle_gen _ _ AX rots th NE m 0 0 ltac:(lia) eq_refl). cbn [skipn] in E. rewrite E, foldM_map.
  destruct (@built_fold 1 nat (fun s x => let '(r, s0) := (nth (x mod List.length rots) rots AX, th x) in qthen s (qb (QRot r s0))) (fun i => [(QRot (nth (i mod List.length rots) rots AX) (th i), [], 0)]) (seq 0 m)) with (c := Idn 1) (gs := @nil (qbox * list nat * nat)) as (c & Ec & Bc).
  - intros i _ c gs B. assert (Bb : built 1 (qb (QRot (nth (i mod List.length rots) rots AX) (th i))) [(QRot (nth (i mod List.length rots) rots AX) (th i), [], 0)]).
    { split; [now apply gtyped_box'|]. split; [|reflexivity]. repeat constructor. }
    exact (built_then B Bb).
  - apply built_id.
  - exists c. split; [exact Ec|]. cbn [app] in Bc. unfold single_gates. rewrite <- flat_map_one. exact Bc.
Qed.
Definition core (A : ansatz) (label : string) (n : nat) : res qdiag :=
  match n with
  | 0 => Ok (qid [])
  | 1 => foldM (fun c '(r, s) => qthen c (qb (QRot r s))) (zip_cycle (a_rots A) (a_rots A) (map (sym label) (seq 0 (a_single A)))) (Idn 1)
  | _ => let k := row_length (a_kind A) n in circuit A n (reshape (a_layers A) k (map (sym label) (seq 0 (a_layers A * k))))
  end.
Lemma row_layer k n : row_length k n = layer_params k n. Proof. destruct k; reflexivity. Qed.
Lemma core_built A label n : a_rots A <> [] -> (n >= 2 -> ranges_ok (a_kind A) (a_layers A) n) -> exists c, core A label n = Ok c /\ built n c (box_gates A n label).
Proof.
  intros NR R. destruct n as [|[|n]]; cbn [core box_gates].
  - exists (qid []). split; auto. apply built_id.
  - now apply single_built.
  - cbv zeta. rewrite reshape_rows. pose proof (row_layer (a_kind A) (S (S n))) as RL. rewrite <- RL. clear RL. apply circuit_built with (th := fun l i => sym label (l * row_length (a_kind A) (S (S n)) + i)); [lia|apply R; lia].
Qed.
(** ** Kets and bras *)
Lemma tensor_one d : tensor_all [d] = d. Proof. unfold tensor_all. cbn. apply gtensor_id_l. Qed.
Lemma map_repeat X Y (f : X -> Y) x n : map f (repeat x n) = repeat (f x) n. Proof. induction n; cbn; congruence. Qed.
Lemma kets_eq m : 0 < m -> kets (repeat false m) = Ok (tensor_all (repeat (qb (QKet false)) m)).
Proof. intros H. destruct m as [|[|m]]; [lia|cbn [kets repeat]; now rewrite tensor_one|]. cbn [kets repeat]. cbn [map]. now rewrite map_repeat. Qed.
Lemma bras_eq m : 0 < m -> bras (repeat false m) = Ok (tensor_all (repeat (qb (QBra false)) m)).
Proof. intros H. destruct m as [|[|m]]; [lia|cbn [bras repeat]; now rewrite tensor_one|]. cbn [bras repeat]. cbn [map]. now rewrite map_repeat. Qed.
Lemma typed_repeat d s t m : qtyped d s t -> qtyped (tensor_all (repeat d m)) (List.concat (repeat s m)) (List.concat (repeat t m)).
Proof.
  intros T. induction m; cbn [repeat List.concat].
  - apply gtyped_id.
  - rewrite tensor_all_cons. now apply gtyped_tensor.
Qed.
Lemma concat_unit m : List.concat (repeat [Qb] m) = qubits m. Proof. induction m; cbn; [reflexivity|]. now rewrite IHm. Qed.
Lemma concat_nil m : List.concat (repeat (@nil wire) m) = []. Proof. induction m; cbn; auto. Qed.
Lemma boxes_repeat d m : gboxes (tensor_all (repeat d m)) = List.concat (repeat (gboxes d) m) :> list qbox.
Proof. induction m; cbn [repeat List.concat]; [reflexivity|]. now rewrite tensor_all_cons, gboxes_tensor, IHm. Qed.
Lemma typed_col_ket d m : qtyped (qtensor (Idn d) (tensor_all (repeat (qb (QKet false)) m))) (qubits d) (qubits (d + m)).
Proof.
  replace (qubits d) with (qubits d ++ List.concat (repeat (@nil wire) m)) by now rewrite concat_nil, app_nil_r. rewrite <- qubits_app, <- (concat_unit m).
  apply gtyped_tensor; [apply gtyped_id|]. apply typed_repeat. now apply gtyped_box'.
Qed.
Lemma typed_col_eff b d m : q_dom b = [Qb] -> q_cod b = [] -> qtyped (qtensor (Idn d) (tensor_all (repeat (qb b) m))) (qubits (d + m)) (qubits d).
Proof.
  intros. replace (qubits d) with (qubits d ++ List.concat (repeat (@nil wire) m)) by now rewrite concat_nil, app_nil_r. rewrite <- qubits_app, <- (concat_unit m).
  apply gtyped_tensor; [apply gtyped_id|]. apply typed_repeat. now apply gtyped_box'.
Qed.
Lemma typed_basis b d m : qtyped b (qubits 1) (qubits 1) -> qtyped (gtensor_list (Idn d) (repeat b m)) (qubits (d + m)) (qubits (d + m)).
Proof.
  intros T. rewrite gtensor_list_from. rewrite <- qubits_app, <- (concat_unit m). apply gtyped_tensor; [apply gtyped_id|]. now apply typed_repeat.
Qed.
Lemma boxes_col d b m : gboxes (qtensor (Idn d) (tensor_all (repeat (qb b) m))) = repeat b m.
Proof. unfold qtensor. rewrite gboxes_tensor, boxes_repeat. cbn. induction m; cbn; congruence. Qed.
Lemma boxes_basis d b m : gboxes (gtensor_list (Idn d) (repeat b m)) = List.concat (repeat (gboxes b) m) :> list qbox.
Proof. rewrite gtensor_list_from, gboxes_tensor. change (gtensor_list (gid []) (repeat b m)) with (tensor_all (repeat b m)). now rewrite boxes_repeat. Qed.

Lemma gboxes_then a b r s t (c : qdiag) : qtyped a r s -> qtyped b s t -> exists c, qthen a b = Ok c /\ qtyped c r t /\ glayers c = glayers a ++ glayers b.
Proof. intros A B. apply (gtyped_then wire_eqb_ok A B). Qed.
Definition n_extras (dom cod anc : nat) : nat := Nat.max dom cod + anc - cod.
Definition pre_layers (dom cod anc : nat) : list (list wire * qbox * list wire) := glayers (qtensor (Idn dom) (tensor_all (repeat (qb (QKet false)) (Nat.max dom cod + anc - dom)))).
Definition post_layers (A : ansatz) (dom cod anc : nat) : list (list wire * qbox * list wire) :=
  if a_discard A then glayers (qtensor (Idn cod) (tensor_all (repeat (qb QDisc) (n_extras dom cod anc))))
  else glayers (gtensor_list (Idn cod) (repeat (a_basis A) (n_extras dom cod anc))) ++ glayers (qtensor (Idn cod) (tensor_all (repeat (qb (QBra false)) (n_extras dom cod anc)))).
Lemma ar_layers A label dom cod anc : a_rots A <> [] -> qtyped (a_basis A) (qubits 1) (qubits 1) -> (Nat.max dom cod + anc >= 2 -> ranges_ok (a_kind A) (a_layers A) (Nat.max dom cod + anc)) ->
  exists c c0, ar A label dom cod anc = Ok c /\ qtyped c (qubits dom) (qubits cod) /\ built (Nat.max dom cod + anc) c0 (box_gates A (Nat.max dom cod + anc) label) /\
    glayers c = pre_layers dom cod anc ++ glayers c0 ++ post_layers A dom cod anc.
Proof.
  intros NR TB R. destruct (core_built label NR R) as (c0 & E0 & B0). pose proof B0 as (T0 & _ & _).
  assert (S1 : exists c1, (if (dom <? cod) || (0 <? anc) then do k <- kets (repeat false ((cod - dom) + anc)); qthen (qtensor (Idn dom) k) c0 else Ok c0) = Ok c1 /\
     qtyped c1 (qubits dom) (qubits (Nat.max dom cod + anc)) /\ glayers c1 = pre_layers dom cod anc ++ glayers c0).
  { unfold pre_layers. destruct ((dom <? cod) || (0 <? anc)) eqn:Ec.
    - assert (0 < cod - dom + anc). { apply orb_true_iff in Ec as [H|H]; apply Nat.ltb_lt in H; lia. }
      rewrite kets_eq by auto. cbn [bind]. pose proof (typed_col_ket dom (cod - dom + anc)) as TK. replace (dom + (cod - dom + anc)) with (Nat.max dom cod + anc) in TK by lia.
      destruct (gtyped_then wire_eqb_ok TK T0) as (c1 & E1 & T1 & L1). exists c1. split; [exact E1|]. split; auto. rewrite L1. replace (Nat.max dom cod + anc - dom) with (cod - dom + anc) by lia. reflexivity.
    - apply orb_false_iff in Ec as [H1 H2]. apply Nat.ltb_ge in H1, H2. exists c0. replace (Nat.max dom cod + anc - dom) with 0 by lia. replace (Nat.max dom cod + anc) with dom in * by lia. split; [reflexivity|]. split; auto. }
  destruct S1 as (c1 & E1 & T1 & L1). unfold ar. change (match Nat.max dom cod + anc with 0 => _ | 1 => _ | _ => _ end) with (core A label (Nat.max dom cod + anc)). rewrite E0, bind_ok, E1, bind_ok.
  unfold post_layers, n_extras. destruct ((cod <? dom) || (0 <? anc)) eqn:Ec.
  - assert (0 < dom - cod + anc). { apply orb_true_iff in Ec as [H|H]; apply Nat.ltb_lt in H; lia. }
    replace (Nat.max dom cod + anc - cod) with (dom - cod + anc) by lia. replace (Nat.max dom cod + anc) with (cod + (dom - cod + anc)) in T1 by lia. destruct (a_discard A).
    + destruct (gtyped_then wire_eqb_ok T1 (@typed_col_eff QDisc cod (dom - cod + anc) eq_refl eq_refl)) as (c & E & T & L). exists c, c0. split; [exact E|]. split; auto. split; auto. now rewrite L, L1, <- app_assoc.
    + destruct (gtyped_then wire_eqb_ok T1 (@typed_basis (a_basis A) cod (dom - cod + anc) TB)) as (c2 & E2 & T2 & L2). unfold qthen. match goal with |- context [bind ?x _] => replace x with (@Ok qdiag c2) by (symmetry; exact E2) end. rewrite bind_ok, bras_eq by auto. rewrite bind_ok.
      destruct (gtyped_then wire_eqb_ok T2 (@typed_col_eff (QBra false) cod (dom - cod + anc) eq_refl eq_refl)) as (c & E & T & L). exists c, c0. split; [exact E|]. split; auto. split; auto. now rewrite L, L2, L1, <- !app_assoc.
  - apply orb_false_iff in Ec as [H1 H2]. apply Nat.ltb_ge in H1, H2. exists c1, c0. split; [reflexivity|]. replace (Nat.max dom cod + anc - cod) with 0 by lia. split; [replace (qubits cod) with (qubits (Nat.max dom cod + anc)) by (f_equal; lia); auto|]. split; auto.
    rewrite L1. f_equal. cbn. destruct (a_discard A); cbn; now rewrite app_nil_r.
Qed.
(** ** Semantics of kets and bras *)
Section Sem.
  Variables (K : Type) (k0 : K) (base : qbox -> oper K). Hypothesis (HI : interp_ok base) (HK : ket_bra k0 base).
  Notation arr := (q_array base).
  Lemma ket_layers d m : glayers (qtensor (Idn d) (tensor_all (repeat (qb (QKet false)) m))) = map (fun i => (qubits (d + i), QKet false, [])) (seq 0 m).
  Proof.
    unfold qtensor. cbn [gtensor glayers Idn qid gid map app gcod]. revert d. induction m; intros d; [reflexivity|]. cbn [repeat seq map]. rewrite tensor_all_cons. cbn [gtensor glayers qb gbox map app gcod q_cod].
    assert (Dn : gdom (tensor_all (repeat (qb (QKet false)) m)) = []). { destruct (@typed_repeat (qb (QKet false)) [] [Qb] m) as (_ & D & _); [now apply gtyped_box'|]. rewrite concat_nil in D. exact D. }
    f_equal.
    - unfold gext. cbn [gl_left gl_box gl_right fst snd]. rewrite Dn, !app_nil_r, Nat.add_0_r. reflexivity.
    - rewrite <- seq_shift, (map_map S). etransitivity; [|etransitivity; [exact (IHm (S d))|apply map_ext; intros; now rewrite <- plus_n_Sm]].
      rewrite map_map. apply map_ext. intros [[l b] r]. unfold gext. cbn [gl_left gl_box gl_right fst snd]. rewrite !app_nil_r. rewrite app_assoc. change [Qb] with (qubits 1). rewrite qubits_app, Nat.add_1_r. reflexivity.
  Qed.
  Lemma ket_sem d m psi : forall x, List.length x = d + m -> q_layers arr (glayers (qtensor (Idn d) (tensor_all (repeat (qb (QKet false)) m)))) psi x = init_zero k0 d psi x.
  Proof.
    rewrite ket_layers. induction m as [|m IH]; intros x L.
    - cbn [seq map q_layers]. unfold init_zero. rewrite skipn_all2, firstn_all2 by lia. reflexivity.
    - rewrite seq_S, map_app, q_layers_app. cbn [map q_layers Nat.add]. rewrite len_qubits. cbn [q_dom q_cod List.length]. cbn [q_array].
      destruct (split_at (x := x) (n := d + m) (m := 1) ltac:(lia)) as (a & b & -> & La & Lb). destruct b as [|b [|]]; try discriminate.
      rewrite <- (app_nil_r (a ++ [b])), <- app_assoc. rewrite on_wires_mid by auto. destruct HK as [H1 _]. rewrite H1. cbn [app]. unfold init_zero. rewrite skipn_app, existsb_app. replace (d - List.length a) with 0 by lia. cbn [skipn existsb]. rewrite orb_false_r.
      destruct b; [now rewrite orb_true_r|]. rewrite orb_false_r. rewrite app_nil_r. rewrite IH by auto. unfold init_zero. rewrite firstn_app. replace (d - List.length a) with 0 by lia. cbn [firstn]. now rewrite app_nil_r.
  Qed.
  Lemma bra_layers d m : glayers (qtensor (Idn d) (tensor_all (repeat (qb (QBra false)) m))) = map (fun i => (qubits d, QBra false, qubits (m - 1 - i))) (seq 0 m).
  Proof.
    unfold qtensor. cbn [gtensor glayers Idn qid gid map app gcod]. induction m; [reflexivity|]. cbn [repeat seq map]. rewrite tensor_all_cons. cbn [gtensor glayers qb gbox map app gcod q_cod].
    assert (Dn : gdom (tensor_all (repeat (qb (QBra false)) m)) = qubits m). { destruct (@typed_repeat (qb (QBra false)) [Qb] [] m) as (_ & D & _); [now apply gtyped_box'|]. rewrite concat_unit in D. exact D. }
    f_equal.
    - unfold gext. cbn [gl_left gl_box gl_right fst snd]. rewrite Dn, !app_nil_r. replace (S m - 1 - 0) with m by lia. reflexivity.
    - rewrite <- seq_shift, (map_map S). etransitivity; [|etransitivity; [exact IHm|apply map_ext; intros; f_equal; f_equal; lia]].
      rewrite map_map. apply map_ext. intros [[l b] r]. unfold gext. cbn [gl_left gl_box gl_right fst snd]. now rewrite !app_nil_r.
  Qed.
  Lemma bra_sem d m : forall psi x, List.length x = d -> q_layers arr (glayers (qtensor (Idn d) (tensor_all (repeat (qb (QBra false)) m)))) psi x = select_zero m psi x.
  Proof.
    rewrite bra_layers. induction m as [|m IH]; intros psi x L.
    - cbn. unfold select_zero. cbn. now rewrite app_nil_r.
    - cbn [seq map q_layers]. rewrite <- seq_shift, map_map.
      replace (map (fun i => (qubits d, QBra false, qubits (S m - 1 - S i))) (seq 0 m)) with (map (fun i => (qubits d, QBra false, qubits (m - 1 - i))) (seq 0 m)) by (apply map_ext; intros; f_equal; f_equal; lia).
      rewrite IH by auto. unfold select_zero. rewrite len_qubits. cbn [q_dom q_cod List.length q_array]. rewrite <- (app_nil_l (repeat false m)). rewrite on_wires_mid by auto. destruct HK as [_ H2]. rewrite H2. reflexivity.
  Qed.
  Lemma init_local d n : d <= n -> local_op d n (@init_zero K k0 d).
  Proof. intros H psi phi E x L. unfold init_zero. destruct existsb; auto. apply E. rewrite firstn_length. lia. Qed.
  Lemma ar_sem A label dom cod anc : a_rots A <> [] -> a_basis A = Idn 1 -> a_discard A = false -> (Nat.max dom cod + anc >= 2 -> ranges_ok (a_kind A) (a_layers A) (Nat.max dom cod + anc)) ->
    exists c, ar A label dom cod anc = Ok c /\ qtyped c (qubits dom) (qubits cod) /\
      forall psi y, List.length y = cod -> q_eval base c psi y = select_zero (Nat.max dom cod + anc - cod) (run_gates arr (box_gates A (Nat.max dom cod + anc) label) (init_zero k0 dom psi)) y.
  Proof.
    intros NR EB ED R. destruct (@ar_layers A label dom cod anc) as (c & c0 & E & T & B & L); auto. { rewrite EB. apply gtyped_id. }
    exists c. split; auto. split; auto. intros psi y Ly. unfold q_eval. rewrite L, !q_layers_app. unfold post_layers, n_extras. rewrite ED, EB, q_layers_app.
    assert (Eid : forall m, glayers (gtensor_list (Idn cod) (repeat (Idn 1) m)) = []).
    { intros m. rewrite gtensor_list_from. cbn. clear. induction m; [reflexivity|]. cbn [repeat]. rewrite gtensor_list_id. cbn. now destruct (glayers (gtensor_list (gid []) (repeat (Idn 1) m))). }
    rewrite Eid. cbn [q_layers]. rewrite bra_sem by auto. unfold select_zero. set (n := Nat.max dom cod + anc) in *.
    assert (Ln : List.length (y ++ repeat false (n - cod)) = n) by (rewrite app_length, repeat_length; lia).
    destruct B as (T0 & F & EG). destruct T0 as (W & D & C). unfold gwf in W. rewrite D, C in W. destruct (layers_run HI F eq_refl W) as [FG RG]. rewrite RG by auto. rewrite EG in *.
    apply (@run_local K base n); auto. intros z Lz. unfold pre_layers. fold n. apply ket_sem. lia.
  Qed.
End Sem.
