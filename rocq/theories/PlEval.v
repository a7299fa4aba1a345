(** Proofs about PlModel: kets, post-selections, parameters, and the whole circuit. *)
From Coq Require Import QArith Sorting.Sorted.
From Verif Require Import PyBase PyFacts DiagModel GDiag GDiagSpec GDiagFacts QModel QSpec QFacts QPlace QApply QRead PlModel PlSpec PlFacts PlRun.
Close Scope Q_scope. Close Scope string_scope.
Set Implicit Arguments. Unset Strict Implicit.

Lemma param_eqb_sym p q : param_eqb p q = true -> param_eqb q p = true.
Proof.
  destruct p, q; cbn; try discriminate.
  - rewrite !andb_true_iff, !String.eqb_eq, !Z.eqb_eq, !Qeq_bool_iff. intros (((-> & ->) & ->) & H). repeat split. now apply Qeq_sym.
  - rewrite !Qeq_bool_iff. apply Qeq_sym.
Qed.
Lemma param_eqb_trans p q r : param_eqb p q = true -> param_eqb q r = true -> param_eqb p r = true.
Proof.
  destruct p, q, r; cbn; try discriminate.
  - rewrite !andb_true_iff, !String.eqb_eq, !Z.eqb_eq, !Qeq_bool_iff. intros (((-> & ->) & ->) & H) (((-> & ->) & ->) & H'). repeat split. eapply Qeq_trans; eauto.
  - rewrite !Qeq_bool_iff. apply Qeq_trans.
Qed.
Lemma passoc_ext V p q (l : list (param * V)) : param_eqb p q = true -> passoc p l = passoc q l.
Proof.
  intro H. induction l as [|[r v] l IH]; cbn; auto. rewrite IH. replace (param_eqb p r) with (param_eqb q r); auto. destruct (param_eqb q r) eqn:E.
  - symmetry. eapply param_eqb_trans; eauto.
  - destruct (param_eqb p r) eqn:E'; auto. rewrite <- E. eapply param_eqb_trans; eauto using param_eqb_sym.
Qed.
Lemma dedup_spec l : forall seen, (forall p, In p (dedup_params l seen) -> In p l \/ In p seen) /\ (forall p, In p l \/ In p seen -> exists q, In q (dedup_params l seen) /\ param_eqb q p = true).
Proof.
  induction l as [|x l IH]; intro seen; cbn.
  - split; [intros p H; right; now apply in_rev|]. intros p [[]|H]. exists p. split; [now apply in_rev in H|apply param_eqb_refl].
  - destruct (existsb (param_eqb x) seen) eqn:E.
    + destruct (IH seen) as (H1 & H2). split; [intros p Hp; destruct (H1 p Hp); auto|]. intros p [[->|Hp]|Hp]; auto. apply existsb_exists in E. destruct E as (y & Hy & Ey). destruct (H2 y (or_intror Hy)) as (q & Hq & Eq). exists q. split; auto. eapply param_eqb_trans; eauto using param_eqb_sym.
    + destruct (IH (x :: seen)) as (H1 & H2). split; [intros p Hp; destruct (H1 p Hp) as [|[|]]; auto|]. intros p H. apply H2. cbn. tauto.
Qed.
Lemma pindex_some p l q : In q l -> param_eqb q p = true -> exists i r, pindex p l = Some i /\ nth_error l i = Some r /\ param_eqb r p = true.
Proof.
  induction l as [|x l IH]; intros [] E; cbn.
  - subst. rewrite E. exists 0, q. auto.
  - destruct (param_eqb x p) eqn:Ex; [exists 0, x; auto|]. destruct IH as (i & r & H1 & H2 & H3); auto. exists (S i), r. rewrite H1. auto.
Qed.
Lemma mapM_ok X Y (f : X -> res Y) g l : (forall x, In x l -> f x = Ok (g x)) -> mapM f l = Ok (map g l).
Proof. induction l as [|x l IH]; cbn; auto. intro H. rewrite H by auto. cbn. rewrite IH by auto. reflexivity. Qed.
Lemma good_unscaled p : good_param p -> is_sym p = true -> param_eqb (unscaled p) p = true.
Proof. destruct p as [n a b s|]; cbn; [|discriminate]. intros H _. rewrite String.eqb_refl, !Z.eqb_refl. apply Qeq_bool_iff. now apply Qeq_sym. Qed.
Lemma no_adj_app a b : no_adjacent_scalars (a ++ b) -> no_adjacent_scalars a /\ no_adjacent_scalars b.
Proof. induction a as [|x a IH]; cbn; auto. intros (H1 & H2). destruct (IH H2) as (H3 & H4). split; auto. split; auto. destruct a; auto. Qed.
Lemma sorted_seq n : forall k, StronglySorted lt (seq k n).
Proof. induction n as [|n IH]; intro k; cbn; constructor; auto. apply Forall_forall. intros x H. apply in_seq in H. lia. Qed.
Lemma sorted_filter (f : nat -> bool) l : StronglySorted lt l -> StronglySorted lt (filter f l).
Proof. induction 1 as [|x l H IH F]; cbn; [constructor|]. destruct (f x); auto. constructor; auto. apply Forall_forall. intros y Hy. apply filter_In in Hy. rewrite Forall_forall in F. now apply F. Qed.

Lemma foldM_app X Y (f : X -> Y -> res X) l1 : forall l2 s, foldM f (l1 ++ l2) s = bind (foldM f l1 s) (fun s' => foldM f l2 s').
Proof. induction l1 as [|x l1 IH]; intros l2 s; [reflexivity|]. cbn. destruct (f s x); [apply IH|reflexivity]. Qed.

Lemma concrete_ok K A (num : Q -> A) amul sym_order (pvalue : param -> A) ps syms (wm : list (param * A)) ops wires pr post mx sc n :
  (forall l : list param, Permutation (sym_order l) l) -> (forall v, pvalue (PVal v) = num v) -> syms = sym_order (dedup_params (filter is_sym (List.concat ps)) []) ->
    Forall (Forall (fun p => good_param p /\ (is_sym p = true -> passoc p wm = Some (pvalue p)))) ps ->
    concrete_params num amul wm (@PL K ops syms ps wires pr post mx sc n) = Ok (map (map pvalue) ps).
  Proof.
    intros sym_perm NUM ES F. unfold concrete_params. cbn [pl_params pl_symbols]. destruct (dedup_spec (filter is_sym (List.concat ps)) []) as (D1 & D2).
    assert (FA : forall p, In p (List.concat ps) -> good_param p /\ (is_sym p = true -> passoc p wm = Some (pvalue p))).
    { intros p H. apply in_concat in H. destruct H as (l & H1 & H2). rewrite Forall_forall in F. specialize (F l H1). rewrite Forall_forall in F. auto. }
    assert (HS : forall s, In s syms -> In s (List.concat ps) /\ is_sym s = true).
    { intros s H. subst syms. apply (Permutation_in _ (sym_perm _)) in H. destruct (D1 s H) as [H'|[]]. now apply filter_In in H'. }
    set (ws := map pvalue syms).
    assert (HM : forall w, (w = ws \/ existsb is_sym (List.concat ps) = false) -> mapM (mapM (subst_param num amul syms w)) ps = Ok (map (map pvalue) ps)).
    { intros w Hw. apply mapM_ok. intros l Hl. apply mapM_ok. intros p Hp. assert (Hc : In p (List.concat ps)) by (apply in_concat; eauto). destruct (FA p Hc) as (G & W). destruct p as [nm a b s|v]; [|cbn; f_equal; symmetry; apply NUM].
      destruct Hw as [->|Hw]. 2:{ assert (existsb is_sym (List.concat ps) = true) by (apply existsb_exists; eexists; split; [exact Hc|reflexivity]). congruence. }
      assert (GU := good_unscaled G eq_refl). destruct (D2 (PSym nm a b s)) as (q & Hq & Eq). { left. apply filter_In. split; auto. }
      assert (Hq' : In q syms) by (subst syms; apply (Permutation_in _ (Permutation_sym (sym_perm _))); exact Hq).
      destruct (@pindex_some (unscaled (PSym nm a b s)) syms q Hq') as (i & r & I1 & I2 & I3). { eapply param_eqb_trans; [exact Eq|]. now apply param_eqb_sym. }
      cbn [subst_param]. rewrite I1. unfold ws. rewrite nth_error_map, I2. cbn [option_map]. cbn in G. rewrite (proj2 (Qeq_bool_iff s 1) G). f_equal.
      assert (Er : param_eqb r (PSym nm a b s) = true) by (eapply param_eqb_trans; [exact I3|exact GU]). apply nth_error_In in I2. destruct (HS r I2) as (H1 & H2). destruct (FA r H1) as (_ & W2). specialize (W2 H2). rewrite (passoc_ext wm Er), (W eq_refl) in W2. congruence. }
    destruct (existsb is_sym (List.concat ps)) eqn:EX.
    - assert (Ew : mapM (fun s => match passoc s wm with Some w => Ok w | None => Err KeyError end) syms = Ok ws).
      { unfold ws. apply mapM_ok. intros s Hs. destruct (HS s Hs) as (H1 & H2). destruct (FA s H1) as (_ & W). rewrite (W H2). reflexivity. }
      rewrite Ew. cbn [bind]. apply HM. now left.
    - cbn [bind]. apply HM. now right.
  Qed.
Lemma mapM_key X Y (f : X -> option Y) l x : In x l -> f x = None -> mapM (fun x => match f x with Some y => Ok y | None => Err KeyError end) l = Err KeyError.
Proof.
  induction l as [|z l IH]; intros H E; [destruct H|]. cbn. destruct (f z) eqn:Ez; [|reflexivity]. cbn. destruct H as [->|H]; [congruence|]. now rewrite (IH H E).
Qed.
Lemma passoc_none V n a b s (wm : list (param * V)) : ~ (s == 1)%Q -> (forall p v, In (p, v) wm -> good_param p) -> passoc (PSym n a b s) wm = None.
Proof.
  intros NS. induction wm as [|[p v] wm IH]; intro G; cbn [passoc]; auto. destruct (param_eqb (PSym n a b s) p) eqn:E.
  - exfalso. specialize (G p v (or_introl eq_refl)). destruct p as [m a' b' s'|w]; cbn in E; [|discriminate]. rewrite !andb_true_iff in E. destruct E as (_ & E). apply Qeq_bool_iff in E. apply NS. cbn in G. now rewrite E.
  - apply IH. intros p' v' H. apply (G p' v'). now right.
Qed.
Lemma concrete_scaled K A (num : Q -> A) amul sym_order (c : plcirc K) (wm : list (param * A)) n a b s : (forall l : list param, Permutation (sym_order l) l) ->
  pl_symbols c = sym_order (dedup_params (filter is_sym (List.concat (pl_params c))) []) -> In (PSym n a b s) (List.concat (pl_params c)) -> ~ (s == 1)%Q ->
  (forall p v, In (p, v) wm -> good_param p) -> concrete_params num amul wm c = Err KeyError.
Proof.
  intros SP ES H NS G. unfold concrete_params. replace (existsb is_sym (List.concat (pl_params c))) with true by (symmetry; apply existsb_exists; eexists; split; [exact H|reflexivity]).
  destruct (dedup_spec (filter is_sym (List.concat (pl_params c))) []) as (_ & D). destruct (D (PSym n a b s)) as (q & Hq & Eq). { left. apply filter_In. auto. }
  rewrite (@mapM_key _ _ (fun p => passoc p wm) (pl_symbols c) q); auto.
  - rewrite ES. apply (Permutation_in _ (Permutation_sym (SP _))). exact Hq.
  - rewrite (passoc_ext wm Eq). now apply passoc_none.
Qed.
(** valid states *)
Lemma valid_nth n post op perm : Permutation op (open_set n post) -> List.length perm = List.length op -> exists y, List.length y = n /\
  nth (to_int perm) (valid_states n post op) 0 = to_int y /\ (forall q b, q < n -> nassoc q post = Some b -> nth q y false = b) /\ (forall j, j < List.length op -> nth (nth j op 0) y false = nth j perm false).
Proof.
  intros P L. assert (ND : NoDup op) by (eapply Permutation_NoDup; [apply Permutation_sym, P|apply open_nodup]).
  assert (R : forall q, In q op -> q < List.length (fixed_bits n post)) by (intros q H; rewrite fixed_len; apply (Permutation_in _ P), open_in in H; tauto).
  exists (place_bits op perm (fixed_bits n post)). split; [rewrite place_bits_len by auto; apply fixed_len|]. split.
  { unfold valid_states. destruct (@nth_all_bits nat (fun perm => to_int (place_bits op perm (fixed_bits n post))) 0 (List.length op) perm L) as (E & _). exact E. }
  split.
  - intros q b Hq E. rewrite place_bits_nth by auto. replace (pos q op) with (@None nat). { rewrite fixed_nth by auto. now rewrite E. }
    symmetry. apply pos_none. intro H. apply (Permutation_in _ P), open_in in H. destruct H. congruence.
  - intros j Hj. rewrite place_bits_nth by auto. replace (pos (nth j op 0) op) with (Some j); auto. symmetry. clear - ND Hj. revert j Hj. induction ND as [|x l N ND IH]; cbn; intros j Hj; [lia|]. destruct j; cbn; [now rewrite Nat.eqb_refl|].
    destruct (Nat.eqb_spec (nth j l 0) x) as [E|_]; [exfalso; apply N; rewrite <- E; apply nth_In; lia|]. rewrite IH by lia. reflexivity.
Qed.
Lemma valid_complete n post op y : Permutation op (open_set n post) -> List.length y = n -> (forall q b, q < n -> nassoc q post = Some b -> nth q y false = b) ->
  nth (to_int (map (fun q => nth q y false) op)) (valid_states n post op) 0 = to_int y.
Proof.
  intros P L H. destruct (@valid_nth n post op (map (fun q => nth q y false) op) P) as (z & L1 & E & H1 & H2); [apply map_length|]. rewrite E. f_equal. apply list_ext; [congruence|]. intros q Hq. rewrite L1 in Hq.
  destruct (nassoc q post) as [b|] eqn:Eq. { rewrite (H1 q b), (H q b); auto. }
  assert (I : In q op) by (apply (Permutation_in _ (Permutation_sym P)), open_in; auto). apply (In_nth _ _ 0) in I. destruct I as (j & Hj & E2). rewrite <- E2 at 1. rewrite H2 by auto.
  rewrite (nth_indep _ false ((fun q => nth q y false) 0)) by (now rewrite map_length). rewrite (map_nth (fun q => nth q y false)). now rewrite E2.
Qed.

Section Eval.
  Variables (K A : Type) (kzero kone : K) (kmul : K -> K -> K) (ksq : K -> K).
  Variables (num : Q -> A) (amul : Q -> A -> A) (two_pi : A -> A) (scal : bool -> Q -> K) (u1 : string -> list A -> oper K) (to_circuital : qdiag -> res qdiag).
  Variables (sym_order : list param -> list param) (set_order : list nat -> list nat).
  Hypothesis kassoc : forall x y z, kmul x (kmul y z) = kmul (kmul x y) z.
  Hypothesis kcomm : forall x y, kmul x y = kmul y x.
  Hypothesis kid : forall x, kmul kone x = x.
  Hypothesis ksq_mul : forall x y, ksq (kmul x y) = kmul (ksq x) (ksq y).
  Hypothesis ksq_real : forall r v, ksq (scal r v) = kmul (scal r v) (scal r v).
  Hypothesis sym_perm : forall l, Permutation (sym_order l) l.
  Hypothesis set_sorted : forall l, StronglySorted lt l -> set_order l = l.
  Variables (pvalue : param -> A) (base : qbox -> oper K).
  Hypothesis AG : pl_agrees kzero kmul num two_pi scal u1 pvalue base.
  Notation arr := (q_array base).
  Notation glayer := (list wire * qbox * list wire)%type.

  Lemma kets_state ks : forall k t psi, Forall (fun x : glayer => gl_box x = QKet false /\ gl_right x = []) ks -> gchain q_dom q_cod (qubits k) ks t ->
    (forall x, List.length x = k -> psi x = zero_state kzero kone x) -> forall x, List.length x = k + List.length ks -> q_layers arr ks psi x = zero_state kzero kone x.
  Proof.
    induction ks as [|[[l b] r] ks IH]; intros k t psi F C H x Lx; [apply H; cbn in Lx; lia|]. inversion F as [|? ? F1 F2]; subst. cbn in F1. destruct F1 as (-> & ->). cbn in C. rewrite app_nil_r in C. destruct C as (<- & C).
    cbn [q_layers]. rewrite len_qubits. cbn [q_dom q_cod List.length q_array]. apply (IH (S k) t); auto.
    - replace (qubits (S k)) with (qubits k ++ [Qb]); auto. change [Qb] with (qubits 1). rewrite qubits_app. f_equal. lia.
    - intros y Ly. destruct (@split3 k 1 y) as (a & z & c & -> & La & Lz); [lia|]. rewrite !app_length in Ly. destruct c; [|cbn in Ly; lia]. destruct z as [|z [|? ?]]; try discriminate. rewrite on_wires_mid by auto.
      rewrite (pa_ket AG). cbn [app]. rewrite app_nil_r. unfold zero_state. rewrite existsb_app. cbn [existsb]. rewrite H by auto. unfold zero_state. destruct z; rewrite ?orb_true_r, ?orb_false_r; reflexivity.
    - cbn in Lx |- *. lia.
  Qed.
  Lemma bras_run N ls : forall ci av c psi phi, Forall (fun x : glayer => exists b, gl_box x = QBra b) ls -> gchain q_dom q_cod (qubits (List.length av)) ls c -> av = open_set N (ci_postmap ci) ->
    (forall x, List.length x = List.length av -> psi x = phi (place_bits av x (fixed_bits N (ci_postmap ci)))) ->
    exists ci' av', foldM readoff_step ls (ci, av) = Ok (ci', av') /\ ci_total ci' = ci_total ci /\ ci_gates ci' = ci_gates ci /\ av' = open_set N (ci_postmap ci') /\ c = qubits (List.length av') /\
      List.length (ci_postmap ci') + List.length av' = List.length (ci_postmap ci) + List.length av /\
      forall x, List.length x = List.length av' -> q_layers arr ls psi x = phi (place_bits av' x (fixed_bits N (ci_postmap ci'))).
  Proof.
    induction ls as [|[[l b] r] ls IH]; intros ci av c psi phi F C EA H.
    - cbn in C. exists ci, av. cbn. repeat split; auto.
    - inversion F as [|? ? F1 F2]; subst. cbn in F1. destruct F1 as (x & ->). cbn in C. destruct C as (E & C). set (av := open_set N (ci_postmap ci)) in *.
      assert (El : l = qubits (List.length l) /\ r = qubits (List.length r) /\ List.length l + S (List.length r) = List.length av).
      { assert (Q : forall t n, qubits n = t -> t = qubits (List.length t)) by (intros t n <-; now rewrite len_qubits). assert (AQ : Forall (eq Qb) (l ++ Qb :: r)) by (rewrite <- E; apply Forall_forall; intros y Hy; apply repeat_spec in Hy; auto).
        assert (R : forall t, Forall (eq Qb) t -> t = qubits (List.length t)) by (induction 1 as [|y t <- _ IHt]; cbn; [reflexivity|]; f_equal; exact IHt). apply Forall_app in AQ. destruct AQ as (A1 & A2). inversion A2; subst. split; [now apply R|]. split; [now apply R|].
        apply (f_equal (@List.length _)) in E. rewrite len_qubits, app_length in E. cbn in E. lia. }
      destruct El as (E1 & E2 & E3). destruct (nth_error av (List.length l)) as [q|] eqn:En; [|apply nth_error_None in En; lia].
      destruct (nth_error_split _ _ En) as (a & d & Ed & La). assert (Ec : count_q l = List.length l) by (rewrite E1 at 1; apply count_qubits).
      assert (ND := open_nodup N (ci_postmap ci)). fold av in ND. assert (Nq : ~ In q a) by (rewrite Ed in ND; apply NoDup_remove_2 in ND; intro; apply ND, in_or_app; auto).
      cbn [foldM]. unfold readoff_step at 1. cbn [gl_box gl_left fst snd]. rewrite Ec, En. cbn [bind]. rewrite Ed, (remove_mid d Nq). rewrite <- Ed.
      assert (Lad : List.length (a ++ d) = List.length l + List.length r) by (rewrite Ed in E3; rewrite app_length in *; cbn in E3; lia).
      destruct (IH (CI (ci_total ci) (ci_gates ci) (ci_bitmap ci ++ [(q, List.length (ci_bitmap ci))]) (ci_postmap ci ++ [(q, x)]) (ci_discards ci)) (a ++ d) c (on_wires (List.length l) 1 0 (base (QBra x)) psi) phi F2) as (ci' & av' & R1 & R2 & R3 & R4 & R5 & R6 & R7).
      + rewrite Lad, <- qubits_app. rewrite <- E1, <- E2. exact C.
      + cbn [ci_postmap]. symmetry. now apply open_snoc.
      + cbn [ci_postmap]. intros y Ly. destruct (@split3 (List.length l) 0 y) as (y1 & z & y2 & -> & L1 & Lz); [lia|]. destruct z; [|discriminate]. rewrite on_wires_mid by auto. rewrite (pa_bra AG). cbn [app].
        rewrite H by (clear - Ly Ed Lad E3 L1; rewrite Lad in Ly; rewrite !app_length in *; cbn [List.length app] in *; lia). f_equal.
        rewrite <- (open_snoc x Ed). rewrite <- (@place_step N (ci_postmap ci) a q d (y1 ++ y2) x Ed) by (exact Ly). fold av. f_equal. rewrite La, <- L1. rewrite firstn_app, firstn_all, Nat.sub_diag, skipn_app, skipn_all, Nat.sub_diag. cbn [firstn skipn app]. now rewrite app_nil_r.
      + exists ci', av'. split; [exact R1|]. split; [exact R2|]. split; [exact R3|]. split; [exact R4|]. split; [exact R5|]. split; [|exact R7]. cbn [ci_postmap] in R6. rewrite !app_length in R6. cbn in R6. rewrite Ed, !app_length in *. cbn in *. lia.
  Qed.
  Lemma split_circuit d : pl_circuit d -> exists ks gs bs, glayers d = ks ++ gs ++ bs /\ gdom d = [] /\ Forall (fun x : glayer => gl_box x = QKet false /\ gl_right x = []) ks /\
    List.length ks = List.length (filter (fun x => is_ket (gl_box x)) (glayers d)) /\ Forall (fun x : glayer => pl_gate (gl_box x)) gs /\ Forall (fun x : glayer => exists b, gl_box x = QBra b) bs /\ no_adjacent_scalars (map (@gl_box wire qbox) gs).
  Proof.
    intros (W & HC & HB & HO & HA). destruct (circuital_kets HC) as (ks & rest & EL & Ed & Lk & HK & HR). unfold gboxes in *. rewrite EL in *.
    assert (HB' : Forall (fun x : glayer => pl_gate (gl_box x) \/ exists b, gl_box x = QBra b) rest).
    { apply Forall_forall. intros x Hx. rewrite Forall_forall in HB, HR. specialize (HR x Hx). destruct (HB (gl_box x)) as [E|[|]]; auto; [apply in_map, in_or_app; auto|]. rewrite E in HR. discriminate. }
    assert (HO' : forall i j x b, nth_error (map (@gl_box wire qbox) rest) i = Some (QBra x) -> nth_error (map (@gl_box wire qbox) rest) j = Some b -> i < j -> exists y, b = QBra y).
    { intros i j x b H1 H2 H3. rewrite map_app in HO. apply (HO (List.length ks + i) (List.length ks + j) x b); [| |lia]; rewrite nth_error_app2 by (rewrite map_length; lia); rewrite map_length, Nat.add_comm, Nat.add_sub; auto. }
    rewrite map_app in HA. apply no_adj_app in HA. destruct HA as (_ & HA).
    assert (SP : exists gs bs, rest = gs ++ bs /\ Forall (fun x : glayer => pl_gate (gl_box x)) gs /\ Forall (fun x : glayer => exists b, gl_box x = QBra b) bs).
    { clear - HB' HO'. induction rest as [|x rest IH]; [exists [], []; auto|]. inversion HB' as [|? ? B1 B2]; subst. destruct B1 as [B1|(b & B1)].
      - destruct IH as (gs & bs & -> & G1 & G2); auto. { intros i j y b H1 H2 H3. apply (HO' (S i) (S j) y b); auto. lia. } exists (x :: gs), bs. auto.
      - exists [], (x :: rest). split; auto. split; auto. constructor; [eauto|]. apply Forall_forall. intros y Hy. apply In_nth_error in Hy. destruct Hy as (j & Hj). apply (HO' 0 (S j) b); [cbn; now rewrite B1|cbn; rewrite nth_error_map, Hj; reflexivity|lia]. }
    destruct SP as (gs & bs & -> & G1 & G2). exists ks, gs, bs. rewrite map_app in HA. apply no_adj_app in HA. repeat split; auto; try apply HA.
    apply Forall_forall. intros x Hx. rewrite Forall_forall in HK, HB. destruct (HK x Hx) as (K1 & K2). split; auto. destruct (HB (gl_box x)) as [|[P|(b & P)]]; auto; [apply in_map, in_or_app; auto| |rewrite P in K1; discriminate]. destruct (gl_box x); try discriminate. contradiction.
  Qed.
  Lemma ksq_scale bs : forall c, ksq c = kmul c c -> ksq (fold_left kmul (scalars scal bs) c) = kmul (fold_left kmul (scalars scal bs) c) (fold_left kmul (scalars scal bs) c).
  Proof.
    induction bs as [|b bs IH]; intros c H; cbn; auto. destruct b; cbn; auto. apply IH. rewrite ksq_mul, H, ksq_real. rewrite <- !kassoc. f_equal. rewrite (kcomm c (kmul _ _)), <- kassoc. f_equal. apply kcomm.
  Qed.
  Theorem pl_correct d prob wm : pl_circuit d -> (ksq kone = kone) ->
    (forall b p, In b (gboxes d) -> box_angle b = Some p -> is_sym p = true -> passoc p wm = Some (pvalue p)) ->
    exists c, to_pennylane kone kmul scal to_circuital sym_order d prob = Ok c /\
      pl_eval kzero kone kmul ksq num amul two_pi u1 set_order wm c =
        Ok (match List.length (gcod d) with 0 => [1] | k => repeat 2 k end,
            map (fun x => let a := q_eval base d (fun _ => kone) x in if prob then ksq a else a) (all_bits (List.length (gcod d)))).
  Proof.
    intros PC K1 HW. destruct (split_circuit PC) as (ks & gs & bs & EL & Ed & FK & LK & FG & FB & NA). destruct PC as (W & HC & HB & HO & HA).
    set (N := List.length ks) in *. pose proof W as W0. unfold GDiagSpec.gwf in W0. rewrite EL, Ed in W0. apply gchain_app in W0. destruct W0 as (m1 & W1 & W2). apply gchain_app in W2. destruct W2 as (m2 & W2 & W3).
    assert (FK' : Forall (fun x : glayer => is_ket (gl_box x) = true /\ gl_right x = []) ks) by (eapply Forall_impl; [|exact FK]; intros x (E & R); rewrite E; auto).
    destruct (@kets_phase ks [] 0 m1 FK' W1) as (-> & _ & EK). cbn [Nat.add] in W2. fold N in W2.
    assert (LG : m2 = qubits N /\ layers_of N gs).
    { clear - W2 FG. revert W2 FG. induction gs as [|[[l b] r] gs IH]; intros W2 FG; [cbn in W2; subst; repeat split; auto|]. inversion FG as [|? ? F1 F2]; subst. cbn [gl_box fst snd] in F1. cbn [gchain] in W2. destruct W2 as (E & W2). destruct (gate_shape F1) as (_ & Ec & _). rewrite Ec, <- E in W2.
      destruct (IH W2 F2) as (-> & C & _). split; auto. split; [|constructor; auto]. cbn [gchain]. split; auto. rewrite Ec, <- E. exact C. }
    destruct LG as (-> & LG). destruct (gates_readoff AG LG) as (gl & FE & RG).
    pose proof (gates_sc AG FG FE) as FS.
    assert (RUN := gates_run kassoc kcomm AG LG FE).
    destruct (RUN (q_layers arr ks (fun _ => kone)) (zero_state kzero kone) kone) as (phi & Rphi & Qphi).
    { intros x Lx. rewrite kid. apply (@kets_state ks 0 (qubits N)); auto. intros y Ly. destruct y; [reflexivity|discriminate]. }
    set (scale := fold_left kmul (scalars scal (map (@gl_box wire qbox) gs)) kone) in *.
    destruct (@bras_run N bs (CI N gl [] [] []) (seq 0 N) (gcod d) (q_layers arr gs (q_layers arr ks (fun _ => kone))) (q_layers arr gs (q_layers arr ks (fun _ => kone)))) as (ci & av & B1 & B2 & B3 & B4 & B5 & B6 & B7); auto.
    { rewrite seq_length. exact W3. }
    { cbn. unfold open_set. cbn. clear. induction (seq 0 N); cbn; congruence. }
    { intros x Lx. rewrite seq_length in Lx. cbn [ci_postmap]. replace (seq 0 N) with (open_set N []) by (unfold open_set; cbn; clear; induction (seq 0 N); cbn; congruence). now rewrite place_all. }
    assert (RD : readoff d = Ok ci).
    { unfold readoff. rewrite HC. cbn [negb]. rewrite <- LK. rewrite EL, foldM_app, EK. cbn [bind]. rewrite foldM_app. fold N. rewrite RG. cbn [bind ci_total ci_gates ci_bitmap ci_postmap ci_discards app].
      etransitivity; [apply (f_equal (rmap fst)); exact B1|reflexivity]. }
    cbn [ci_total ci_gates ci_postmap List.length] in B2, B3, B6. rewrite seq_length in B6. cbn [Nat.add] in B6.
    assert (NM : existsb (fun b => match b with QMeas => true | _ => false end) (gboxes d) = false).
    { apply not_true_iff_false. intro H. apply existsb_exists in H. destruct H as (b & Hb & Eb). rewrite Forall_forall in HB. destruct (HB b Hb) as [->|[P|(x & ->)]]; try discriminate. destruct b; try discriminate. contradiction. }
    assert (MX : diag_mixed d = false).
    { unfold diag_mixed. rewrite Ed, B5. cbn [app]. replace (existsb (wire_eqb Bt) (qubits (List.length av))) with false by (clear; induction (List.length av); cbn; auto). cbn [andb orb]. apply not_true_iff_false. intro H. apply existsb_exists in H. destruct H as (b & Hb & Eb). rewrite Forall_forall in HB.
      destruct (HB b Hb) as [->|[P|(x & ->)]]; try discriminate. destruct b as [? ? ? ? ?|? ?|c ?| | | | | | | | | |]; try discriminate; try contradiction; [cbn in P, Eb; destruct P as (_ & _ & _ & ->); discriminate|]. destruct c; try contradiction; cbn in P, Eb; [|discriminate]. destruct P as (_ & _ & _ & _ & ->). discriminate. }
    destruct (gates_lookup AG FG FE) as (GL & GP).
    eexists. split.
    { unfold to_pennylane. rewrite NM, HC. cbn [bind]. rewrite RD. cbn [bind]. rewrite B3.
      pose proof (@strip_ok K kmul scal kone (S (List.length gl)) [] gl kone (Forall_nil _)) as ST. cbn [List.length app] in ST. rewrite ST; [|now apply (gates_adj FS)|lia]. cbv zeta. fold (rest_gates gl). rewrite GL. cbn [bind]. rewrite MX. reflexivity. }
    unfold pl_eval. rewrite (@concrete_ok K A num amul sym_order pvalue); [|exact sym_perm|apply (pa_num AG)|reflexivity|].
    2:{ eapply Forall_impl; [|exact GP]. intros l Hl. eapply Forall_impl; [|exact Hl]. intros p (G & b & Hb & Ep). split; auto. intro Hs. apply (HW b p); auto. unfold gboxes. rewrite EL, !map_app. apply in_or_app. right. apply in_or_app. now left. }
    cbn [bind pl_ops pl_wires]. rewrite Rphi. cbn [bind pl_mixed pl_n pl_post pl_prob pl_scale]. rewrite B2.
    rewrite set_sorted by (apply sorted_filter, sorted_seq). rewrite <- B4. rewrite (gates_scale kone AG FG FE kone). fold scale.
    assert (LC : List.length (gcod d) = List.length av) by (rewrite B5; apply len_qubits). rewrite LC. f_equal. f_equal.
    - rewrite map_length. unfold valid_states. rewrite map_length, all_bits_count. replace (N - List.length (ci_postmap ci)) with (List.length av) by lia.
      destruct (List.length av) as [|k]; [reflexivity|]. assert (0 < 2 ^ k) by (apply Nat.neq_0_lt_0, Nat.pow_nonzero; lia). destruct (Nat.eqb_spec (2 ^ S k) 1) as [E|]; [cbn in E; lia|reflexivity].
    - unfold valid_states. rewrite map_map. apply map_ext_in. intros y Hy. apply all_bits_len in Hy. assert (LP : List.length (place_bits av y (fixed_bits N (ci_postmap ci))) = N).
      { rewrite place_bits_len; [apply fixed_len|rewrite B4; apply open_nodup|]. intros q Hq. rewrite fixed_len. rewrite B4 in Hq. apply open_in in Hq. tauto. }
      destruct (@nth_all_bits K (fun x => if prob then ksq (phi x) else phi x) kzero N _ LP) as (E & _). rewrite E. unfold q_eval. rewrite EL, !q_layers_app. rewrite B7 by auto. rewrite Qphi by auto. fold scale.
      destruct prob; [|reflexivity]. rewrite ksq_mul. f_equal. symmetry. apply ksq_scale. now rewrite K1, kid.
  Qed.
End Eval.
