(** Proofs about PlModel: the converted circuit computes what the diagram denotes. *)
From Coq Require Import QArith.
From Verif Require Import PyBase PyFacts DiagModel GDiag GDiagSpec GDiagFacts QModel QSpec QFacts QPlace QApply QRead PlModel PlSpec PlFacts.
Close Scope Q_scope. Close Scope string_scope.
Set Implicit Arguments. Unset Strict Implicit.

Lemma ctl_export c d off : one_qubit (ctl_base (QCtl c d)) -> dists_nonzero (QCtl c d) -> match c with QCtl _ _ => False | _ => True end ->
  exists c0 t, place (QCtl c d) off = ([c0], t) /\ off <= t < off + List.length (q_dom (QCtl c d)) /\
    forall ph, (if ((gtype (QCtl c d)) =? "CRx")%string || ((gtype (QCtl c d)) =? "CRz")%string then ctl_phase c else Ok PhNone) = Ok ph ->
    from_box (QCtl c d) off = Ok (Gate (gtype (QCtl c d)) [c0; t] ph false (Some [c0]) (Some t)).
Proof.
  intros H1 H2 H3. pose proof (@rel_place (QCtl c d) H1 H2 off) as R.
  assert (P : exists c0 t, place (QCtl c d) off = ([c0], t)) by (cbn [place]; destruct c; try contradiction; cbn [place]; destruct (0 <? d)%Z; eexists _, _; reflexivity).
  destruct P as (c0 & t & P). exists c0, t. rewrite P in R |- *. destruct R as (E & ND & R & _). split; [reflexivity|]. split; [apply R, in_or_app; right; now left|].
  intros ph EP. unfold from_box. rewrite (@mapM_index off _ _ _ E R). cbn [bind app]. rewrite EP. reflexivity.
Qed.

Section Run.
  Variables (K A : Type) (kzero kone : K) (kmul : K -> K -> K).
  Variables (num : Q -> A) (amul : Q -> A -> A) (two_pi : A -> A) (scal : bool -> Q -> K) (u1 : string -> list A -> oper K).
  Hypothesis kassoc : forall x y z, kmul x (kmul y z) = kmul (kmul x y) z.
  Hypothesis kcomm : forall x y, kmul x y = kmul y x.
  Hypothesis kid : forall x, kmul kone x = x.
  Variables (pvalue : param -> A) (base : qbox -> oper K).
  Hypothesis AG : pl_agrees kzero kmul num two_pi scal u1 pvalue base.
  Notation arr := (q_array base).

  Definition hom_op (N : nat) (u : oper K) : Prop := forall c psi x, List.length x = N -> u (fun y => kmul c (psi y)) x = kmul c (u psi x).
  Definition as_base (v : oper K) (u : oper K) : Prop := local_op 1 1 v /\ hom_op 1 v /\ forall psi b, v psi [b] = u psi [b].
  Lemma gate_at_ok v u cs t N : as_base v u -> t < N -> local_op N N (gate_at u cs t) /\ hom_op N (gate_at u cs t) /\
    forall psi x, gate_at v cs t psi x = gate_at u cs t psi x.
  Proof.
    intros (L & H & E) Ht. split; [|split].
    - intros psi phi EQ x Lx. unfold gate_at. destruct (forallb _ cs); [|now apply EQ]. rewrite <- !E. apply L; [|reflexivity]. intros y _. apply EQ. rewrite set_bit_len; lia.
    - intros c psi x Lx. unfold gate_at. destruct (forallb _ cs); [|reflexivity]. rewrite <- !E. apply (H c (fun y => psi (set_bit t (hd false y) x))). reflexivity.
    - intros psi x. unfold gate_at. destruct (forallb _ cs); [|reflexivity]. apply E.
  Qed.
  Lemma base_named n m s : In n ["H"; "X"; "Y"; "Z"; "S"; "T"]%string -> as_base (base (QBox n [Qb] [Qb] m s)) (u1 n []).
  Proof.
    intro H. pose proof (pa_ok AG) as O. split; [exact (O (QBox n [Qb] [Qb] m s))|]. split; [|intros; now apply (pa_named AG)].
    intros c psi x Lx. destruct x as [|b [|? ?]]; try discriminate. apply (pa_lin AG).
  Qed.
  Lemma base_rot a p : as_base (base (QRot a p)) (u1 (axis_name a) [two_pi (pvalue p)]).
  Proof.
    pose proof (pa_ok AG) as O. split; [exact (O (QRot a p))|]. split; [|intros; now apply (pa_rot AG)].
    intros c psi x Lx. destruct x as [|b [|? ?]]; try discriminate. apply (pa_lin AG).
  Qed.
  Definition angles (b : qbox) : list param := match box_angle b with Some p => [p] | None => [] end.
  Lemma good_params p : good_param p -> match PhParam p with PhParam (PVal v) => if Qeq_bool v 0 then [] else [PVal v] | PhParam p => [p] | _ => [] end = [p].
  Proof. destruct p as [n a b s|v]; cbn; auto. intro H. destruct (Qeq_bool v 0) eqn:E; auto. apply Qeq_bool_iff in E. contradiction. Qed.
  (** one gate *)
  Definition converts (b : qbox) (off : nat) (g : gate) : Prop :=
    op_lookup (g_type g) = Ok (g_type g) /\ gate_params g = angles b /\
    forall N, off + List.length (q_dom b) <= N -> exists u, op_run u1 (g_type g) (map two_pi (map pvalue (gate_params g))) (g_qubits g) = Ok u /\ local_op N N u /\ hom_op N u /\
      forall psi x, List.length x = N -> on_wires off (List.length (q_dom b)) (List.length (q_cod b)) (arr b) psi x = u psi x.
  Lemma conv_one b off u g : on_qubits 1 b -> match b with QCtl _ _ | QSwap _ _ => False | _ => True end -> as_base (base b) u ->
    gate_params g = angles b -> op_lookup (g_type g) = Ok (g_type g) -> op_run u1 (g_type g) (map two_pi (map pvalue (angles b))) (g_qubits g) = Ok (gate_at u [] off) -> converts b off g.
  Proof.
    intros OQ NC HB EP EL ER. split; auto. split; auto. intros N LN. assert (Ld : List.length (q_dom b) = 1) by (destruct OQ as [-> _]; reflexivity).
    destruct (@gate_at_ok (base b) u [] off N HB) as (G1 & G2 & G3); [lia|]. exists (gate_at u [] off). rewrite EP. split; auto. split; auto. split; auto. intros psi x Lx. rewrite place_sem; [|apply (pa_ok AG)| | |lia].
    - replace (place b off) with (@nil nat, off) by (destruct b; try reflexivity; contradiction). replace (ctl_base b) with b by (destruct b; try reflexivity; contradiction). cbn [fst snd]. rewrite <- G3. destruct b; try reflexivity; contradiction.
    - replace (ctl_base b) with b by (destruct b; try reflexivity; contradiction). split; auto. destruct b; auto.
    - destruct b; cbn; auto; contradiction.
  Qed.
  Lemma conv_ctl c d off u g c0 t : on_qubits 1 c -> match c with QCtl _ _ | QSwap _ _ => False | _ => True end -> d <> 0%Z -> as_base (base c) u -> place (QCtl c d) off = ([c0], t) -> t < off + List.length (q_dom (QCtl c d)) ->
    gate_params g = angles (QCtl c d) -> op_lookup (g_type g) = Ok (g_type g) -> op_run u1 (g_type g) (map two_pi (map pvalue (angles (QCtl c d)))) (g_qubits g) = Ok (gate_at u [c0] t) -> converts (QCtl c d) off g.
  Proof.
    intros OQ NC Hd HB HP Ht EP EL ER. split; auto. split; auto. intros N LN.
    destruct (@gate_at_ok (base c) u [c0] t N HB) as (G1 & G2 & G3); [lia|]. exists (gate_at u [c0] t). rewrite EP. split; auto. split; auto. split; auto. intros psi x Lx.
    assert (B : ctl_base (QCtl c d) = c) by (cbn; destruct c; try reflexivity; contradiction).
    rewrite place_sem; [|apply (pa_ok AG)| | |lia].
    - rewrite HP, B. cbn [fst snd]. rewrite <- G3. destruct c; try reflexivity; contradiction.
    - rewrite B. split; auto. destruct c; auto.
    - cbn. split; auto. destruct c; cbn; auto; contradiction.
  Qed.
  Lemma convert_gate b off : pl_gate b -> exists g, from_box b off = Ok g /\ is_sc g = is_scal b /\
    match b with QScal r v => g_phase g = PhScalar r v | _ => converts b off g end.
  Proof.
    intro P. destruct b as [n d c m s|a p|c d| | | | | | | |r v|a b|]; try contradiction.
    - destruct P as (Hn & -> & -> & ->). exists (Gate n [off] PhNone false None None).
      assert (G : gtype (QBox n [Qb] [Qb] false s) = n) by (cbn in Hn; decompose [or] Hn; subst; try contradiction; reflexivity).
      split; [unfold from_box; cbn [q_dom List.length seq]; rewrite G; reflexivity|]. split; [unfold is_sc; cbn; cbn in Hn; decompose [or] Hn; subst; try contradiction; reflexivity|].
      apply (@conv_one _ off (u1 n [])); auto; [split; reflexivity|now apply base_named| |]; cbn in Hn; decompose [or] Hn; subst; try contradiction; reflexivity.
    - exists (Gate (axis_name a) [off] (PhParam p) false None None). split; [destruct a; reflexivity|]. split; [unfold is_sc; destruct a; reflexivity|].
      apply (@conv_one _ off (u1 (axis_name a) [two_pi (pvalue p)])); auto; [split; reflexivity|apply base_rot| | |].
      + unfold gate_params. cbn [g_phase]. apply (good_params P).
      + destruct a; reflexivity.
      + destruct a; reflexivity.
    - destruct c as [n dd cc m s|a p| | | | | | | | | | |]; try contradiction.
      + destruct P as (Hd & Hn & -> & -> & ->). destruct (@ctl_export (QBox n [Qb] [Qb] false s) d off) as (c0 & t & HP & Ht & HE); [repeat split|split; auto; exact I|exact I|].
        assert (G : gtype (QCtl (QBox n [Qb] [Qb] false s) d) = ("C" ++ n)%string) by (cbn in Hn; decompose [or] Hn; subst; try contradiction; reflexivity).
        exists (Gate ("C" ++ n)%string [c0; t] PhNone false (Some [c0]) (Some t)). rewrite G in HE.
        split; [apply HE; cbn in Hn; decompose [or] Hn; subst; try contradiction; reflexivity|]. split; [unfold is_sc; cbn; cbn in Hn; decompose [or] Hn; subst; try contradiction; reflexivity|].
        apply (@conv_ctl _ d off (u1 n []) _ c0 t); auto; [split; reflexivity|apply base_named; cbn in Hn; decompose [or] Hn; subst; try contradiction; cbn; tauto|apply Ht| |]; cbn in Hn; decompose [or] Hn; subst; try contradiction; reflexivity.
      + destruct P as (Hd & Ha & Hp). destruct (@ctl_export (QRot a p) d off) as (c0 & t & HP & Ht & HE); [repeat split|split; auto; exact I|exact I|].
        exists (Gate ("C" ++ axis_name a)%string [c0; t] (PhParam p) false (Some [c0]) (Some t)). split; [|split].
        * replace (gtype (QCtl (QRot a p) d)) with ("C" ++ axis_name a)%string in HE by (destruct a; reflexivity). apply HE. destruct a; try reflexivity. congruence.
        * unfold is_sc. destruct a; reflexivity.
        * apply (@conv_ctl _ d off (u1 (axis_name a) [two_pi (pvalue p)]) _ c0 t); auto; [split; reflexivity|apply base_rot|apply Ht| | |].
          -- unfold gate_params. cbn [g_phase]. apply (good_params Hp).
          -- destruct a; reflexivity.
          -- destruct a; reflexivity.
    - exists (Gate "Scalar" [] (PhScalar r v) false None None). repeat split.
    - destruct a, b; try contradiction. exists (Gate "SWAP" [off; S off] PhNone false None None). split; [reflexivity|]. split; [reflexivity|]. split; [reflexivity|]. split; [reflexivity|].
      intros N LN. cbn in LN. eexists. split; [reflexivity|]. cbn [nth g_qubits]. split; [|split].
      + intros psi phi E x Lx. apply E. assert (L1 : List.length (set_bit (S off) (bit_of off x) x) = N) by (rewrite set_bit_len; lia). rewrite set_bit_len; lia.
      + intros k psi x Lx. reflexivity.
      + intros psi x Lx. destruct (@split3 off 2 x) as (a & y & c & -> & La & Ly); [cbn in LN |- *; lia|]. destruct y as [|y1 [|y2 [|? ?]]]; try discriminate. subst off.
        cbn [q_dom q_cod List.length q_array]. rewrite on_wires_mid by reflexivity. cbn [op_swap]. f_equal. cbn [app].
        change (S (List.length a)) with (1 + List.length a). rewrite Nat.add_comm. replace (List.length a + 1) with (List.length (a ++ [y1])) by (rewrite app_length; reflexivity).
        replace (bit_of (List.length (a ++ [y1])) (a ++ y1 :: y2 :: c)) with y2 by (change (y1 :: y2 :: c) with ([y1] ++ y2 :: c); rewrite app_assoc, bit_mid; reflexivity). rewrite bit_mid.
        change (y1 :: y2 :: c) with ([y1] ++ y2 :: c). rewrite (app_assoc a), set_bit_mid, <- app_assoc. cbn [app]. now rewrite set_bit_mid.
  Qed.

  (** the gates of a circuit on [N] qubits *)
  Lemma gate_shape b : pl_gate b -> q_dom b = qubits (List.length (q_dom b)) /\ q_cod b = q_dom b /\ is_gate b = true.
  Proof.
    intro P. destruct b as [n d c m s|a p|c d| | | | | | | |r v|a b|]; try contradiction; try (repeat split; reflexivity).
    - destruct P as (_ & -> & -> & _). repeat split.
    - split; [|split; reflexivity]. cbn [q_dom]. rewrite repeat_length. reflexivity.
    - destruct a, b; try contradiction. repeat split.
  Qed.
  Fixpoint scalars (bs : list qbox) : list K := match bs with [] => [] | QScal r v :: bs' => scal r v :: scalars bs' | _ :: bs' => scalars bs' end.
  Definition layers_of (N : nat) (ls : list (list wire * qbox * list wire)) : Prop := gchain q_dom q_cod (qubits N) ls (qubits N) /\ Forall (fun x : list wire * qbox * list wire => pl_gate (gl_box x)) ls.
  Definition exported (x : list wire * qbox * list wire) (g : gate) : Prop := from_box (gl_box x) (List.length (gl_left x)) = Ok g.
  Lemma layers_cons N l b r ls : layers_of N ((l, b, r) :: ls) -> pl_gate b /\ List.length l + List.length (q_dom b) <= N /\ layers_of N ls.
  Proof.
    intros (C & F). inversion F as [|? ? F1 F2]; subst. cbn [gl_box fst snd] in F1. cbn [gchain] in C. destruct C as (E & C). destruct (gate_shape F1) as (_ & Ec & _). rewrite Ec, <- E in C. split; auto. split; [|split; auto].
    apply (f_equal (@List.length _)) in E. rewrite len_qubits, !app_length in E. lia.
  Qed.
  Lemma gates_readoff N ls : layers_of N ls -> exists gs, Forall2 exported ls gs /\
    forall ci av, foldM readoff_step ls (ci, av) = Ok (CI (ci_total ci) (ci_gates ci ++ gs) (ci_bitmap ci) (ci_postmap ci) (ci_discards ci), av).
  Proof.
    induction ls as [|[[l b] r] ls IH]; intro H.
    - exists []. split; [constructor|]. intros [] av. cbn. now rewrite app_nil_r.
    - apply layers_cons in H. destruct H as (P & _ & H). destruct (IH H) as (gs & F & E). destruct (convert_gate (List.length l) P) as (g & Eg & _). exists (g :: gs). split; [constructor; auto|].
      intros ci av. cbn [foldM]. destruct (gate_shape P) as (_ & _ & G). rewrite (step_gate ci av r G Eg). cbn [bind]. rewrite E. cbn [ci_total ci_gates ci_bitmap ci_postmap ci_discards]. now rewrite <- app_assoc.
  Qed.
  Lemma gates_sc ls gs : Forall (fun x : list wire * qbox * list wire => pl_gate (gl_box x)) ls -> Forall2 exported ls gs ->
    Forall2 (fun (x : list wire * qbox * list wire) g => is_sc g = is_scal (gl_box x)) ls gs.
  Proof.
    intros P F. induction F as [|x g ls gs E F IH]; constructor.
    - inversion P as [|? ? P1 P2]; subst. destruct (convert_gate (List.length (gl_left x)) P1) as (g' & E' & S & _). congruence.
    - apply IH. inversion P; auto.
  Qed.
  Lemma gates_adj ls gs : Forall2 (fun (x : list wire * qbox * list wire) g => is_sc g = is_scal (gl_box x)) ls gs -> no_adjacent_scalars (map (@gl_box wire qbox) ls) -> gno_adj gs.
  Proof.
    intros F. induction F as [|x g ls gs E F IH]; cbn; auto. intros (H1 & H2). split; [|apply IH, H2]. destruct F as [|x' g' ls gs E' F]; auto. cbn in H1. congruence.
  Qed.
  Lemma gates_scale ls gs : Forall (fun x : list wire * qbox * list wire => pl_gate (gl_box x)) ls -> Forall2 exported ls gs ->
    forall c, fold_left (fun s g => kmul s (sc_val scal kone g)) (filter is_sc gs) c = fold_left kmul (scalars (map (@gl_box wire qbox) ls)) c.
  Proof.
    intros P F. induction F as [|x g ls gs E F IH]; intro c; [reflexivity|]. inversion P as [|? ? P1 P2]; subst. destruct (convert_gate (List.length (gl_left x)) P1) as (g' & E' & S & H). assert (g' = g) by (unfold exported in *; cbn [gl_box gl_left fst snd] in *; congruence). subst g'. cbn [filter map]. rewrite S.
    destruct (gl_box x) eqn:Eb; cbn [is_scal scalars]; try apply (IH P2). cbn [fold_left]. replace (sc_val scal kone g) with (scal root v) by (unfold sc_val; now rewrite H). apply (IH P2).
  Qed.
  Definition rest_gates (gs : list gate) := filter (fun g => negb (is_sc g)) gs.
  Lemma gates_lookup ls gs : Forall (fun x : list wire * qbox * list wire => pl_gate (gl_box x)) ls -> Forall2 exported ls gs ->
    mapM op_lookup (map g_type (rest_gates gs)) = Ok (map g_type (rest_gates gs)) /\
    Forall (Forall (fun p => good_param p /\ exists b, In b (map (@gl_box wire qbox) ls) /\ box_angle b = Some p)) (map gate_params (rest_gates gs)).
  Proof.
    intros P F. induction F as [|x g ls gs E F IH]; [split; [reflexivity|constructor]|]. inversion P as [|? ? P1 P2]; subst. destruct (convert_gate (List.length (gl_left x)) P1) as (g' & E' & S & H). assert (g' = g) by (unfold exported in *; cbn [gl_box gl_left fst snd] in *; congruence). subst g'.
    destruct (IH P2) as (IH1 & IH2). assert (IH3 : Forall (Forall (fun p => good_param p /\ exists b, In b (map (@gl_box wire qbox) (x :: ls)) /\ box_angle b = Some p)) (map gate_params (rest_gates gs))).
    { eapply Forall_impl; [|exact IH2]. intros l Hl. eapply Forall_impl; [|exact Hl]. intros p (H1 & b & H2 & H3). split; auto. exists b. split; [now right|auto]. }
    unfold rest_gates in *. cbn [filter]. rewrite S. destruct (is_scal (gl_box x)) eqn:Es; cbn [negb]; [split; auto|]. assert (C : converts (gl_box x) (List.length (gl_left x)) g) by (destruct (gl_box x); auto; discriminate).
    destruct C as (C1 & C2 & _). cbn [map mapM]. rewrite C1. cbn [bind]. rewrite IH1. cbn [bind]. split; [reflexivity|]. constructor; auto. rewrite C2. unfold angles. destruct (box_angle (gl_box x)) as [p|] eqn:Ep; constructor; [|constructor]. split.
    - destruct (gl_box x) as [n d c m s|a q|c d| | | | | | | |r v|a b|]; try discriminate; try contradiction; cbn in Ep.
      + injection Ep as <-. exact P1.
      + destruct c; try discriminate. injection Ep as <-. apply P1.
    - exists (gl_box x). split; [now left|exact Ep].
  Qed.
  Lemma gates_run N ls gs : layers_of N ls -> Forall2 exported ls gs ->
    forall psi phi c, (forall x, List.length x = N -> psi x = kmul c (phi x)) ->
    exists phi', run_ops two_pi u1 (map g_type (rest_gates gs)) (map (map pvalue) (map gate_params (rest_gates gs))) (map g_qubits (rest_gates gs)) phi = Ok phi' /\
      forall x, List.length x = N -> q_layers arr ls psi x = kmul (fold_left kmul (scalars (map (@gl_box wire qbox) ls)) c) (phi' x).
  Proof.
    intros H F. revert H. induction F as [|[[l b] r] g ls gs E F IH]; intros H psi phi c EQ.
    - exists phi. split; [reflexivity|]. intros x Lx. cbn. now apply EQ.
    - apply layers_cons in H. destruct H as (P & LN & H). cbn [gl_box gl_left fst snd] in E. destruct (convert_gate (List.length l) P) as (g' & E' & S & C). assert (g' = g) by (unfold exported in *; cbn [gl_box gl_left fst snd] in *; congruence). subst g'.
      unfold rest_gates in *. cbn [filter q_layers map gl_box fst snd]. rewrite S. destruct (is_scal b) eqn:Es; cbn [negb].
      + destruct b; try discriminate. cbn [scalars fold_left]. apply IH; auto. intros x Lx. cbn [q_dom q_cod List.length]. destruct (@split3 (List.length l) 0 x) as (a & y & d & -> & La & Ly); [lia|]. destruct y; [|discriminate].
        rewrite on_wires_mid by auto. cbn [q_array]. rewrite (pa_scal AG). rewrite EQ by auto. rewrite kassoc. f_equal. apply kcomm.
      + assert (C' : converts b (List.length l) g) by (destruct b; auto; discriminate). destruct C' as (_ & C2 & C3). destruct (C3 N LN) as (u & U1 & U2 & U3 & U4). cbn [map run_ops]. rewrite U1. cbn [bind].
        replace (scalars (b :: map (@gl_box wire qbox) ls)) with (scalars (map (@gl_box wire qbox) ls)) by (destruct b; auto; discriminate).
        apply IH; auto. intros x Lx. rewrite U4 by auto. rewrite <- U3 by auto. apply U2; auto.
  Qed.
End Run.
