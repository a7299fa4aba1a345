(** Proofs: circuits with the same gates in the same order on the same qubits have the same amplitude. *)
From Coq Require Import QArith.
From Verif Require Import PyBase PyFacts GDiag GDiagSpec GDiagFacts QModel QSpec QFacts QPlace QReadSpec CirModel CirSpec CirList CirPull CirRun CirLoop CirMain.
Close Scope Q_scope. Set Implicit Arguments. Unset Strict Implicit.

(** ** values of named qubits *)
Fixpoint val (ws : list nat) (x : list bool) (n : nat) : bool :=
  match ws, x with w :: ws', b :: x' => if w =? n then b else val ws' x' n | _, _ => false end.
Definition upd (f : nat -> bool) (w : nat) (b : bool) (n : nat) : bool := if w =? n then b else f n.
Lemma val_notin ws : forall x n, ~ In n ws -> val ws x n = false.
Proof. induction ws as [|w ws IH]; intros [|b x] n H; cbn; auto. destruct (Nat.eqb_spec w n); [subst; exfalso; apply H; now left|]. apply IH. intro I. apply H. now right. Qed.
Lemma val_ins ws : forall k w x b n, ~ In w ws -> k <= len ws -> len x = len ws -> val (ins k w ws) (ins k b x) n = upd (val ws x) w b n.
Proof.
  induction ws as [|a ws IH]; intros [|k] w [|c x] b n H Hk Hx; cbn in *; try lia; auto.
  rewrite IH by (try lia; tauto). unfold upd. destruct (Nat.eqb_spec a n), (Nat.eqb_spec w n); subst; auto. exfalso. apply H. now left.
Qed.
Lemma val_swp ws : forall k x n, NoDup ws -> k + 2 <= len ws -> len x = len ws -> val (swp k ws) (swp k x) n = val ws x n.
Proof.
  induction ws as [|a ws IH]; intros [|k] [|c x] n ND Hk Hx; cbn in *; try lia.
  - destruct ws as [|a' ws]; cbn in *; [lia|]. destruct x as [|c' x]; cbn in *; [lia|]. inversion ND as [|? ? N1 N2]; subst. destruct (Nat.eqb_spec a n), (Nat.eqb_spec a' n); subst; auto. exfalso. apply N1. now left.
  - inversion ND; subst. rewrite IH by (auto; lia). reflexivity.
Qed.
Lemma val_nth ws : forall p x, NoDup ws -> len x = len ws -> p < len ws -> val ws x (nth p ws 0) = bit_of p x.
Proof.
  induction ws as [|w ws IH]; intros [|p] [|b x] ND Hx Hp; cbn in *; try lia; [now rewrite Nat.eqb_refl|]. inversion ND as [|? ? N1 N2]; subst.
  destruct (Nat.eqb_spec w (nth p ws 0)) as [E|_]; [exfalso; apply N1; rewrite E; apply nth_In; lia|]. unfold bit_of. cbn. apply IH; auto; lia.
Qed.
Lemma val_set ws : forall p x b n, NoDup ws -> len x = len ws -> p < len ws -> val ws (set_bit p b x) n = upd (val ws x) (nth p ws 0) b n.
Proof.
  induction ws as [|w ws IH]; intros p x b n ND Hx Hp; [cbn in Hp; lia|]. destruct x as [|c x]; [discriminate|]. destruct p as [|p].
  - cbn. unfold upd. destruct (w =? n); auto.
  - change (set_bit (S p) b (c :: x)) with (c :: set_bit p b x). cbn in *. inversion ND as [|? ? N1 N2]; subst. rewrite IH by (auto; lia). unfold upd. cbn. destruct (Nat.eqb_spec w n); auto. subst.
    destruct (Nat.eqb_spec (nth p ws 0) n) as [E|]; auto. exfalso. apply N1. rewrite <- E. apply nth_In. lia.
Qed.
Lemma ins_perm A (x : A) l : forall k, Permutation (ins k x l) (x :: l).
Proof. induction l as [|a l IH]; intros [|k]; cbn; auto. rewrite IH. apply perm_swap. Qed.
Lemma swp_perm A (l : list A) : forall k, Permutation (swp k l) l.
Proof. induction l as [|a l IH]; intros [|k]; cbn; auto. destruct l; auto. apply perm_swap. Qed.
Lemma del_ins_ex A (l : list A) z k : k < len l -> exists m, l = ins k (nth k l z) m /\ m = del k l /\ len m = len l - 1.
Proof. intro H. exists (del k l). split; [symmetry; now apply ins_del|]. split; auto. now apply del_len. Qed.
Lemma ins_firstn A (x : A) l k : k <= len l -> firstn k (ins k x l) = firstn k l /\ skipn (S k) (ins k x l) = skipn k l /\ firstn 1 (skipn k (ins k x l)) = [x].
Proof. revert l. induction k as [|k IH]; intros [|a l] H; cbn in *; auto; try lia. destruct (IH l) as (I1 & I2 & I3); [lia|]. rewrite I1. auto. Qed.
Lemma set_bit_len i b x : i < len x -> len (set_bit i b x) = len x.
Proof. intro H. unfold set_bit. rewrite app_length, firstn_length. cbn [List.length]. rewrite skipn_length. lia. Qed.

Lemma nodup_cat A (a b : list A) : NoDup (a ++ b) -> NoDup a /\ NoDup b /\ forall q, In q a -> ~ In q b.
Proof.
  induction a as [|x a IH]; cbn; intro H; [split; [constructor|split; auto]|]. inversion H as [|? ? N ND]; subst. destruct (IH ND) as (I1 & I2 & I3). rewrite in_app_iff in N.
  split; [constructor; tauto|split; auto]. intros q [<-|I]; [tauto|now apply I3].
Qed.
Lemma swp_swp A (l : list A) : forall k, k + 2 <= len l -> swp k (swp k l) = l.
Proof. induction l as [|a l IH]; intros [|k] H; cbn in *; try lia. - destruct l; auto. - f_equal. apply IH. lia. Qed.
Fixpoint lch (n : nat) (ls : list qlayer) (n' : nat) : Prop :=
  match ls with
  | [] => n = n'
  | (l, b, r) :: ls' => circ_box b /\ b <> QDisc /\ n = len l + len (q_dom b) + len r /\ lch (len l + len (q_cod b) + len r) ls' n'
  end.
Lemma gchain_lch (ls : list qlayer) : forall t t', gchain q_dom q_cod t ls t' -> Forall circ_box (map gl_box ls) -> ~ In QDisc (map gl_box ls) -> lch (len t) ls (len t').
Proof.
  induction ls as [|[[l b] r] ls IH]; intros t t' H F N; cbn [gchain lch map gl_box fst snd] in *; [now subst|]. destruct H as (-> & H). inversion F as [|? ? C F']; subst. cbn in C. cbn in N.
  split; [exact C|]. split; [intros ->; tauto|]. split; [rewrite !app_length; lia|]. apply IH in H; [|auto|tauto]. rewrite !app_length in H. now rewrite <- Nat.add_assoc.
Qed.
Lemma side_gate b : same_side b -> one_qubit (ctl_base b) /\ dists_nonzero b /\ has_wire b /\ match ctl_base b with QSwap _ _ | QCtl _ _ => False | _ => True end.
Proof.
  assert (B : forall b, base_gate b -> one_qubit (ctl_base b) /\ dists_nonzero b /\ has_wire b /\ ctl_base b = b /\ match ctl_base b with QSwap _ _ | QCtl _ _ => False | _ => True end).
  { intros b0 (D & C & M). destruct b0; try contradiction; (split; [split; [split; [exact D|exact C]|exact I]|split; [exact I|split; [exact I|split; [reflexivity|exact I]]]]). }
  intros [H|H].
  - split; [|split; [|split; [now apply left_wire|]]].
    + induction b; cbn [left_controls ctl_base] in *; try (apply B in H; apply H). now apply IHb.
    + induction b; cbn [left_controls dists_nonzero] in *; try exact I. destruct H as (H1 & H2). split; [lia|auto].
    + induction b; cbn [left_controls ctl_base] in *; try (apply B in H; apply H). now apply IHb.
  - unfold right_controls in H. destruct b; try contradiction. destruct b; try (destruct H as (D & H); apply B in H as (H1 & H2 & H3 & H4 & H5); cbn [ctl_base dists_nonzero has_wire] in *; destruct H1 as ((H1 & H1') & H1''); split; [split; [split; assumption|assumption]|]; split; [split; [lia|auto]|]; split; [split; [auto|split; [lia|rewrite H1; cbn; lia]]|auto]).
    destruct H as (D & D' & H). apply B in H as (H1 & H2 & H3 & H4 & H5). cbn [ctl_base dists_nonzero has_wire q_dom]. rewrite repeat_length. rewrite H4 in *. destruct H1 as ((H1 & H1') & H1''). rewrite H1.
    split; [split; [split; assumption|assumption]|]. split; [split; [lia|split; [lia|auto]]|]. split; [split; [split; [auto|split; [lia|cbn; lia]]|split; [lia|cbn; lia]]|auto].
Qed.
Section K.
  Variable (K : Type) (k0 : K).
  Notation nstate := ((nat -> bool) -> K).
  (** a gate acting on named qubits, the target last *)
  Definition nact (u : oper K) (qs : list nat) (Psi : nstate) : nstate := fun f =>
    match rev qs with
    | [] => u (fun _ => Psi f) []
    | t :: cs => if forallb f (rev cs) then u (fun y => Psi (upd f t (hd false y))) [f t] else Psi f
    end.
  Variable base : qbox -> oper K.
  Definition nrun (Psi : nstate) (e : visit) : nstate := match e with VGate b qs => nact (q_array base b) qs Psi | _ => Psi end.
  (** the amplitudes on the wires [ws] are those of the named qubits with all other qubits 0; a qubit not yet prepared is 0 *)
  Definition agree (phi : state K) (Psi : nstate) (ws names : list nat) : Prop :=
    (forall f g, (forall n, f n = g n) -> Psi f = Psi g) /\ (forall x, len x = len ws -> phi x = Psi (val ws x)) /\ (forall f n, In n names -> f n = true -> Psi f = k0).
  Hypothesis HI : interp_ok base.
  Hypothesis Hket : forall one psi b, base (QKet one) psi [b] = if Bool.eqb b one then psi [] else k0.
  Hypothesis Hbra : forall one psi, base (QBra one) psi [] = psi [one].
  Hypothesis HX : forall psi b, base gX psi [b] = psi [negb b].
  Hypothesis H0 : forall b psi x, (forall y, psi y = k0) -> base b psi x = k0.

  Lemma nact_agree u qs Psi : (forall psi phi y, (forall x, psi x = phi x) -> len y = Nat.min 1 (len qs) -> u psi y = u phi y) -> (forall f g, (forall n, f n = g n) -> Psi f = Psi g) ->
    forall f g, (forall n, f n = g n) -> nact u qs Psi f = nact u qs Psi g.
  Proof.
    intros Hu HP f g E. unfold nact. assert (L : len (rev qs) = len qs) by apply rev_length. destruct (rev qs) as [|t cs]; [apply Hu; [intro; now apply HP|now rewrite <- L]|].
    replace (forallb g (rev cs)) with (forallb f (rev cs)) by (clear -E; induction (rev cs); cbn; congruence). destruct (forallb f (rev cs)); [|now apply HP]. rewrite (E t). apply Hu; [|rewrite <- L; reflexivity]. intro y. apply HP. intro n. unfold upd. now rewrite E.
  Qed.
  Lemma nact_zero u qs Psi names : (forall psi y, (forall x, psi x = k0) -> u psi y = k0) -> (forall q, In q qs -> ~ In q names) -> (forall f n, In n names -> f n = true -> Psi f = k0) ->
    forall f n, In n names -> f n = true -> nact u qs Psi f = k0.
  Proof.
    intros Hu HN HZ f n I E. unfold nact. destruct (rev qs) as [|t cs] eqn:R; [apply Hu; intro; eapply HZ; eauto|]. destruct (forallb f (rev cs)); [|eapply HZ; eauto].
    apply Hu. intro y. apply (HZ _ n I). unfold upd. destruct (Nat.eqb_spec t n) as [-> |]; auto. exfalso. apply (HN n); auto. apply in_rev. rewrite R. now left.
  Qed.

  Lemma place_positions b : forall k, has_wire b -> len (q_dom (ctl_base b)) = 1 -> positions b k = fst (place b k) ++ [snd (place b k)].
  Proof.
    induction b; intros k W H; cbn [positions place ctl_base fst snd app] in *; try (now rewrite H); try reflexivity; try discriminate H. destruct W as (W & Wd & Wl). destruct (0 <? distance)%Z.
    - rewrite IHb by auto. destruct (place b (k + Z.to_nat distance)) as [cs t]. reflexivity.
    - rewrite IHb by auto. destruct (place b k) as [cs t]. cbn [fst snd]. rewrite removelast_last, last_last, <- app_assoc. cbn [app]. rewrite Nat.add_sub_assoc by lia. now rewrite Nat.add_assoc.
  Qed.
  (** gates: one-qubit boxes under controls, and boxes without wires *)
  Definition plain_gate (b : qbox) : Prop := (one_qubit (ctl_base b) /\ dists_nonzero b /\ has_wire b) \/ (q_dom b = [] /\ q_cod b = [] /\ (forall k, positions b k = []) /\ ctl_base b = b).
  Lemma agree_gate b (l r : list wire) phi Psi ws names : plain_gate b -> (match ctl_base b with QSwap _ _ | QCtl _ _ => False | _ => True end) -> NoDup (ws ++ names) -> len ws = len l + len (q_dom b) + len r -> agree phi Psi ws names ->
    (forall p, In p (positions b (len l)) -> p < len ws) ->
    agree (on_wires (len l) (len (q_dom b)) (len (q_cod b)) (q_array base b) phi) (nact (q_array base (ctl_base b)) (map (fun p => nth p ws 0) (positions b (len l))) Psi) ws names.
  Proof.
    intros P HB ND W (A1 & A2 & A3) PR. assert (EB : q_array base (ctl_base b) = base (ctl_base b)) by (destruct (ctl_base b); try contradiction; reflexivity).
    destruct (nodup_cat ND) as (NW & _ & DJ).
    split; [|split].
    - apply nact_agree; auto. intros psi phi' y E Ly. rewrite EB. apply HI; [intros; apply E|].
      destruct P as [(((D & C) & _) & _)|(D & C & Ep & Eb)]; [rewrite C; cbn|rewrite Eb, C, Ly, Ep; reflexivity].
      rewrite Ly, map_length. destruct (positions b (len l)) as [|p0 ps] eqn:EP; [|reflexivity]. exfalso.
      assert (HW : forall b0 k, one_qubit (ctl_base b0) -> positions b0 k <> []).
      { clear. induction b0; intros k ((D & _) & _); cbn [positions ctl_base] in *; try (rewrite D; discriminate). destruct (0 <? distance)%Z; [discriminate|]. intro E. apply app_eq_nil in E as (_ & E). discriminate. }
      apply (HW b (len l)); auto. split; [split; auto|]. destruct (ctl_base b); auto.
    - intros x Lx. destruct P as [(OQ & DN & HWi)|(D & C & Ep & Eb)].
      + rewrite place_sem by (auto; lia). unfold gate_at, nact. assert (PP := @place_positions b (len l) HWi). destruct OQ as ((OD & OC) & OB). rewrite PP in PR |- * by (rewrite OD; reflexivity).
        destruct (place b (len l)) as [cs t]. cbn [fst snd] in *. rewrite map_app, rev_app_distr. cbn [map rev app]. rewrite rev_involutive.
        assert (FB : forallb (val ws x) (map (fun p => nth p ws 0) cs) = forallb (fun c => bit_of c x) cs).
        { assert (PC : forall p, In p cs -> p < len ws) by (intros; apply PR; apply in_or_app; auto). clear - PC NW Lx. induction cs as [|c cs IH]; cbn; auto. rewrite val_nth by (auto; apply PC; now left). f_equal. apply IH. intros; apply PC; now right. }
        rewrite FB. assert (Ht : t < len ws) by (apply PR, in_or_app; right; now left). destruct (forallb (fun c => bit_of c x) cs); [|now apply A2]. rewrite val_nth by auto. rewrite EB. apply HI; [|rewrite OC; reflexivity].
        intros y _. rewrite A2 by (rewrite set_bit_len; lia). apply A1. intro n. now apply val_set.
      + unfold on_wires. rewrite Ep, Eb, C. cbn [List.length map]. unfold nact. cbn [rev]. rewrite firstn_O. rewrite Eb in EB. rewrite EB. apply HI; [|now rewrite C].
        intros y Ly. rewrite D in Ly. destruct y; [|discriminate]. cbn [app]. rewrite Nat.add_0_r, firstn_skipn. now apply A2.
    - apply nact_zero; auto; [rewrite EB; apply H0|]. intros q I. apply in_map_iff in I as (p & <- & I). apply DJ, nth_In. now apply PR.
  Qed.

  Lemma agree_ket one k phi Psi ws n names : NoDup (ws ++ n :: names) -> k <= len ws -> agree phi Psi ws (n :: names) ->
    agree (on_wires k 0 1 (base (QKet one)) phi) (if one then nact (base gX) [n] Psi else Psi) (ins k n ws) names.
  Proof.
    intros ND Hk (A1 & A2 & A3). destruct (nodup_cat ND) as (NW & NN & DJ). inversion NN as [|? ? N1 N2]; subst. assert (NI : ~ In n ws) by (intro I; apply (DJ n I); now left).
    split; [|split].
    - destruct one; auto. apply nact_agree; auto. intros. apply HI; [intros; auto|]. exact H1.
    - intros x Lx. rewrite ins_len in Lx. destruct (@del_ins_ex _ x false k) as (m & Ex & _ & Lm); [lia|]. set (b := nth k x false) in *. rewrite Ex. assert (Lm' : len m = len ws) by lia.
      unfold on_wires. rewrite Nat.add_1_r. destruct (@ins_firstn _ b m k) as (F1 & F2 & F3); [lia|]. rewrite F1, F2, F3, Hket. cbn [app]. rewrite firstn_skipn.
      assert (V : forall z, val (ins k n ws) (ins k b m) z = upd (val ws m) n b z) by (intro z; apply val_ins; auto).
      assert (U : forall z, upd (val ws m) n false z = val ws m z) by (intro z; unfold upd; destruct (Nat.eqb_spec n z) as [<-|]; auto; now rewrite val_notin).
      destruct one.
      + unfold nact. cbn [rev app forallb]. rewrite HX. cbn [hd]. rewrite V. unfold upd at 2. rewrite Nat.eqb_refl.
        destruct b; cbn [Bool.eqb negb].
        * rewrite A2 by auto. apply A1. intro z. unfold upd. rewrite V. unfold upd. destruct (Nat.eqb_spec n z) as [<-|]; auto. now rewrite val_notin.
        * symmetry. apply (A3 _ n); [now left|]. unfold upd. now rewrite Nat.eqb_refl.
      + rewrite (A1 _ _ V). destruct b; cbn [Bool.eqb].
        * symmetry. apply (A3 _ n); [now left|]. unfold upd. now rewrite Nat.eqb_refl.
        * rewrite A2 by auto. symmetry. now apply A1.
    - destruct one; [|intros f z I; apply A3; now right]. apply nact_zero; [intros; now apply H0| |intros f z I; apply A3; now right]. intros q [<-|[]]; auto.
  Qed.
  Lemma agree_bra one k phi Psi ws names : NoDup (ws ++ names) -> k < len ws -> agree phi Psi ws names ->
    agree (on_wires k 1 0 (base (QBra one)) phi) (if one then nact (base gX) [nth k ws 0] Psi else Psi) (del k ws) names.
  Proof.
    intros ND Hk (A1 & A2 & A3). destruct (nodup_cat ND) as (NW & NN & DJ). set (q := nth k ws 0) in *.
    destruct (@del_ins_ex _ ws 0 k Hk) as (m & Ew & Em & Lm). fold q in Ew. assert (NM : NoDup (q :: m)) by (eapply Permutation_NoDup; [apply ins_perm|]; rewrite <- Ew; exact NW). apply NoDup_cons_iff in NM as (Q1 & Q2).
    rewrite <- Em. split; [|split].
    - destruct one; auto. apply nact_agree; auto. intros. apply HI; [intros; auto|]. exact H1.
    - intros x Lx. unfold on_wires. rewrite Nat.add_0_r. cbn [firstn]. rewrite Hbra. cbn [app]; rewrite <- ins_eq by lia. rewrite A2 by (rewrite ins_len; lia).
      assert (V : forall z, val ws (ins k one x) z = upd (val m x) q one z). { intro z. rewrite Ew at 1. apply val_ins; auto; lia. } rewrite (A1 _ _ V).
      destruct one.
      + unfold nact. cbn [rev app forallb]. rewrite HX. cbn [hd]. rewrite val_notin by auto. reflexivity.
      + apply A1. intro z. unfold upd. destruct (Nat.eqb_spec q z) as [<-|]; auto. now rewrite val_notin.
    - destruct one; auto. apply nact_zero; [intros; now apply H0| |exact A3]. intros z [<-|[]]. apply DJ. now apply nth_In.
  Qed.
  Lemma agree_swp k phi Psi ws names : NoDup (ws ++ names) -> k + 2 <= len ws -> agree phi Psi ws names -> agree (on_wires k 2 2 (@op_swap K) phi) Psi (swp k ws) names.
  Proof.
    intros ND Hk (A1 & A2 & A3). destruct (nodup_cat ND) as (NW & _ & _). split; [exact A1|split; [|exact A3]]. intros x Lx. rewrite swp_len in Lx.
    destruct (@split3 k 2 x) as (a & y & c & -> & La & Ly); [lia|]. destruct y as [|u [|v [|? ?]]]; try discriminate. rewrite on_wires_mid by auto. cbn [op_swap app].
    rewrite A2 by (rewrite !app_length in *; exact Lx). apply A1. intro z. subst k. assert (E : a ++ u :: v :: c = swp (len a) (a ++ v :: u :: c)) by (now rewrite swp_app). cbn [app]. rewrite E. symmetry. apply val_swp; auto.
    rewrite <- Lx, !app_length. reflexivity.
  Qed.

  (** boxes other than preparations, post-selections, discards and swaps *)
  Definition gate_box (b : qbox) : Prop := circ_box b /\ match b with QKet _ | QBra _ | QDisc | QSwap _ _ => False | _ => True end.
  Lemma gate_box_plain b : gate_box b -> plain_gate b /\ (match ctl_base b with QSwap _ _ | QCtl _ _ => False | _ => True end) /\ (forall k p, In p (positions b k) -> k <= p < k + len (q_dom b)) /\
    len (q_cod b) = len (q_dom b) /\
    forall names ws l r, visit_layer (names, ws) (l, b, r) = (names, ws, [VGate (ctl_base b) (map (fun p => nth p ws 0) (positions b (len l)))]).
  Proof.
    intros (C & M). destruct b; try contradiction; cbn [circ_box] in C.
    3: { destruct (side_gate C) as (H1 & H2 & H3 & H4). split; [left; auto|]. split; [exact H4|]. split; [now apply same_side_range|]. split; [reflexivity|]. intros. reflexivity. }
    all: try (destruct C as (E & _); discriminate E).
    all: destruct C as (E & D); split; [|split; [exact I|split; [intros k p J; cbn [positions] in J; apply in_seq in J; exact J|split; [now rewrite E|intros; reflexivity]]]].
    all: destruct D as [D|D].
    all: try (right; split; [exact D|split; [now rewrite <- E|split; [intro; cbn [positions]; now rewrite D|reflexivity]]]).
    all: left; split; [split; [split; [exact D|etransitivity; [symmetry; exact E|exact D]]|exact I]|split; exact I].
  Qed.
  Lemma agree_follow ls : forall n n' names ws phi Psi, lch n ls n' -> len ws = n -> nk ls <= len names -> NoDup (ws ++ names) -> agree phi Psi ws names ->
    exists names' ws', fst (follow (names, ws) ls) = (names', ws') /\ len ws' = n' /\ agree (q_layers (q_array base) ls phi) (fold_left nrun (snd (follow (names, ws) ls)) Psi) ws' names'.
  Proof.
    induction ls as [|[[l b] r] ls IH]; intros n n' names ws phi Psi H W N ND A; cbn [lch] in H.
    - exists names, ws. subst. auto.
    - destruct H as (C & ND' & -> & H). cbn [follow q_layers].
      assert (STEP : exists names1 ws1 es, visit_layer (names, ws) (l, b, r) = (names1, ws1, es) /\ len ws1 = len l + len (q_cod b) + len r /\ nk ls <= len names1 /\ NoDup (ws1 ++ names1) /\
        agree (on_wires (len l) (len (q_dom b)) (len (q_cod b)) (q_array base b) phi) (fold_left nrun es Psi) ws1 names1).
      { change (nk ((l, b, r) :: ls)) with (nk ([(l, b, r)] ++ ls)) in N. rewrite nk_app in N.
        assert (CASES : (exists one, b = QKet one) \/ (exists one, b = QBra one) \/ b = gSWAP \/ (gate_box b /\ nk [(l, b, r)] = 0)).
        { destruct b; eauto; try congruence; try (right; right; right; split; [split; [exact C|exact I]|reflexivity]). destruct C as (-> & ->). auto. }
        destruct CASES as [(one & ->)|[(one & ->)|[->|(G & N0)]]].
        - destruct names as [|m names]; [cbn in N; lia|]. exists names, (ins (len l) m ws), (if one then [VGate gX [m]] else []). cbn in W, N.
          split; [reflexivity|]. split; [rewrite ins_len; cbn; lia|]. split; [unfold nk in *; cbn in N; lia|]. split.
          + eapply Permutation_NoDup; [|exact ND]. rewrite <- Permutation_middle. apply (Permutation_app_tail names (l := m :: ws)). apply Permutation_sym, ins_perm.
          + pose proof (@agree_ket one (len l) phi Psi ws m names ND ltac:(lia) A) as Q. destruct one; exact Q.
        - exists names, (del (len l) ws), ((if one then [VGate gX [nth (len l) ws 0]] else []) ++ [VPost (nth (len l) ws 0)]). cbn in W, N.
          split; [reflexivity|]. split; [rewrite del_len by lia; cbn; lia|]. split; [lia|]. split.
          + destruct (@del_ins_ex _ ws 0 (len l)) as (m & E1 & <- & _); [lia|]. assert (ND2 : NoDup ((nth (len l) ws 0 :: m) ++ names)).
            { eapply Permutation_NoDup; [|exact ND]. apply Permutation_app_tail. rewrite E1 at 1. apply ins_perm. } now apply NoDup_cons_iff in ND2.
          + pose proof (@agree_bra one (len l) phi Psi ws names ND ltac:(lia) A) as Q. destruct one; exact Q.
        - exists names, (swp (len l) ws), []. cbn in W, N. split; [reflexivity|]. split; [rewrite swp_len; cbn; lia|]. split; [lia|]. split.
          + eapply Permutation_NoDup; [|exact ND]. apply Permutation_app_tail, Permutation_sym, swp_perm.
          + apply agree_swp; auto; lia.
        - destruct (gate_box_plain G) as (P1 & P2 & P3 & P4 & P5). exists names, ws, [VGate (ctl_base b) (map (fun p => nth p ws 0) (positions b (len l)))].
          split; [apply P5|]. split; [lia|]. split; [lia|]. split; [exact ND|]. cbn [fold_left nrun]. replace (q_array base (ctl_base b)) with (q_array base (ctl_base b)) by reflexivity.
          apply (@agree_gate b l r); auto. intros p I. apply P3 in I. lia. }
      destruct STEP as (names1 & ws1 & es & -> & W1 & N1 & ND1 & A1). destruct (IH _ _ _ _ _ _ H W1 N1 ND1 A1) as (names2 & ws2 & F1 & F2 & F3).
      destruct (follow (names1, ws1) ls) as [st2 es2]. cbn [fst snd] in *. exists names2, ws2. split; [exact F1|]. split; [exact F2|]. now rewrite fold_left_app.
  Qed.
  Lemma run_gates_of es : forall Psi, fold_left nrun es Psi = fold_left nrun (gates_of es) Psi.
  Proof. induction es as [|[b qs|q|q] es IH]; intro Psi; cbn; auto. Qed.
  Definition start (a : K) (N : nat) : nstate := fun f => if forallb (fun n => negb (f n)) (seq 0 N) then a else k0.
  Lemma start_agree phi N names : Permutation names (seq 0 N) -> agree phi (start (phi []) N) [] names.
  Proof.
    intro P. split; [|split].
    - intros f g E. unfold start. replace (forallb (fun n => negb (g n)) (seq 0 N)) with (forallb (fun n => negb (f n)) (seq 0 N)); auto. clear P. induction (seq 0 N); cbn; congruence.
    - intros [|? ?] Lx; [|discriminate]. unfold start. cbn [val]. assert (E : forall l : list nat, forallb (fun _ => negb false) l = true) by (intro l; induction l; auto). now rewrite E.
    - intros f n I E. unfold start. destruct (forallb (fun n => negb (f n)) (seq 0 N)) eqn:F; auto. rewrite forallb_forall in F. rewrite P in I. apply F in I. rewrite E in I. discriminate.
  Qed.
  Lemma closed_amplitude (d : qdiag) names psi : qtyped d [] [] -> Forall circ_box (gboxes d) -> ~ In QDisc (gboxes d) -> Permutation names (seq 0 (kets_of d)) ->
    q_eval base d psi [] = fold_left nrun (gates_of (visits names d)) (start (psi []) (kets_of d)) (fun _ => false).
  Proof.
    intros (G & D & C) F N P. unfold gwf in G. rewrite D, C in G. apply gchain_lch in G; auto.
    assert (LN : nk (glayers d) <= len names) by (rewrite (Permutation_length P), seq_length, nk_kets; lia).
    assert (NN : NoDup ([] ++ names)) by (cbn; eapply Permutation_NoDup; [apply Permutation_sym, P|apply seq_NoDup]).
    destruct (agree_follow G (eq_refl : len (@nil nat) = len (@nil wire)) LN NN (@start_agree psi (kets_of d) names P)) as (n' & ws' & _ & W & A1 & A2 & _).
    destruct ws'; [|discriminate]. unfold q_eval, visits. rewrite <- run_gates_of. etransitivity; [apply A2; reflexivity|]. apply A1. reflexivity.
  Qed.
End K.
Lemma disc_visit ls : forall st, In QDisc (map gl_box ls) <-> exists q, In (VDisc q) (ends_of (snd (follow st ls))).
Proof.
  induction ls as [|x ls IH]; intros [names ws]; cbn [map follow]; [split; [contradiction|intros (q & [])]|].
  destruct (visit_layer (names, ws) x) as [st1 es] eqn:V. specialize (IH st1). destruct (follow st1 ls) as [st2 es2]. cbn [snd] in *. rewrite ends_app.
  assert (E : (gl_box x = QDisc -> exists q, In (VDisc q) (ends_of es)) /\ (forall q, In (VDisc q) (ends_of es) -> gl_box x = QDisc)).
  { unfold visit_layer in V. destruct (gl_box x) as [| | |one|one| | | | | | | |]; try (injection V as _ <-; cbn; split; [discriminate|intros z []]; fail).
    - destruct one, names; injection V as _ <-; cbn; (split; [discriminate|intros z []]).
    - destruct one; injection V as _ <-; cbn; (split; [discriminate|]); intros z [X|[]]; discriminate.
    - injection V as _ <-. cbn. split; [intros _; eexists; now left|auto]. }
  destruct E as (E1 & E2). split.
  - intros [X|X]; [destruct (E1 X) as (q & I)|apply IH in X as (q & I)]; exists q; apply in_or_app; auto.
  - intros (q & I). apply in_app_or in I as [I|I]; [left; eapply E2; eauto|right; apply IH; eauto].
Qed.
Theorem circuital_amplitude K (k0 : K) base d n t c d' : pure_interp k0 base -> qtyped d (qubits n) t -> Forall circ_box (gboxes d) -> n <> 0 \/ glayers d <> [] ->
  init_and_discard d = Ok c -> ~ In QDisc (gboxes c) -> (exists M, forall fuel, M <= fuel -> to_circuital fuel d = Ok d') -> forall psi, q_eval base d' psi [] = q_eval base c psi [].
Proof.
  intros (I1 & I2 & I3 & I4 & I5) T F N Ec ND (M2 & E2) psi. destruct (to_circuital_ok T F N) as (c1 & d1 & M1 & H1 & H2 & H3 & _ & H5 & H6 & H7 & Tc & _).
  assert (c1 = c) as -> by congruence. assert (d1 = d') as -> by (specialize (H2 (M1 + M2) (Nat.le_add_r _ _)); specialize (E2 (M1 + M2) (Nat.le_add_l _ _)); congruence).
  destruct H5 as (names & P & KE & GE & EE).
  rewrite (@closed_amplitude K k0 base I1 I2 I3 I4 I5 d' names psi), (@closed_amplitude K k0 base I1 I2 I3 I4 I5 c (seq 0 (kets_of c)) psi); auto.
  - now rewrite KE, GE.
  - intro X. apply ND. unfold gboxes in *. apply (disc_visit _ (names, [])) in X as (q & X). apply (disc_visit _ (seq 0 (kets_of c), [])). exists q. eapply Permutation_in; [exact EE|exact X].
  - now rewrite KE.
Qed.
