(** Proofs about substitution in models (C83). *)
From Coq Require Import QArith.
From Verif Require Import PyBase PyFacts DiagMisc LamModel LamSpec LamFacts MiscModel MiscFacts FsModel FsSpec.
Close Scope Q_scope. Close Scope string_scope. Set Implicit Arguments. Unset Strict Implicit.
Section Facts.
  Variables (V : Type) (smul : Q -> V -> V).
  Hypothesis smul1 : forall q x, (q == 1)%Q -> smul q x = x.
  Lemma seto_len (h : heap V) r o : r < List.length h -> List.length (seto h r o) = List.length h.
  Proof. intro H. unfold seto. rewrite app_length, firstn_length. cbn [List.length]. rewrite skipn_length. lia. Qed.
  Lemma geto_seto (h : heap V) r o j : r < List.length h -> geto (seto h r o) j = if j =? r then o else geto h j.
  Proof.
    intro H. unfold geto, seto. destruct (Nat.eqb_spec j r) as [->|N].
    - rewrite app_nth2; rewrite firstn_length, Nat.min_l by lia; [|lia]. now rewrite Nat.sub_diag.
    - destruct (Nat.lt_ge_cases j r) as [Lt|Ge].
      + rewrite app_nth1 by (rewrite firstn_length; lia). rewrite <- (firstn_skipn r h) at 2. rewrite app_nth1 by (rewrite firstn_length; lia). reflexivity.
      + rewrite app_nth2 by (rewrite firstn_length; lia). rewrite firstn_length, Nat.min_l by lia. replace (j - r) with (S (j - r - 1)) by lia. cbn [nth].
        rewrite <- (firstn_skipn (S r) h) at 2. rewrite app_nth2 by (rewrite firstn_length; lia). rewrite firstn_length, Nat.min_l by lia. f_equal. lia.
  Qed.
  Variable h0 : heap V.
  Hypothesis B : built h0.
  Notation st := (fun k => o_data (geto h0 k)).
  Notation kd := (fun k => o_kind (geto h0 k)).
  Definition into (k j : nat) : Prop := o_kind (geto h0 k) = KCtl j \/ o_kind (geto h0 k) = KDag j.
  Inductive inch : nat -> nat -> Prop := inch_refl k : inch k k | inch_step k j i : into k j -> inch j i -> inch k i.
  Lemma into_lt k j : k < List.length h0 -> into k j -> j < k /\ j < List.length h0 /\ o_data (geto h0 k) = o_data (geto h0 j).
  Proof. intros L [E|E]; destruct (B L) as (K & _); rewrite E in K; destruct K; repeat split; auto; lia. Qed.
  Lemma into_fun k j i : into k j -> into k i -> i = j.
  Proof. intros [E|E] [F|F]; congruence. Qed.
  Lemma inch_lt k j : k < List.length h0 -> inch k j -> j <= k /\ j < List.length h0 /\ o_data (geto h0 k) = o_data (geto h0 j).
  Proof. intros L H. induction H as [k|k j i I H IH]; [auto|]. destruct (into_lt L I) as (A1 & A2 & A3). destruct (IH A2) as (A & A' & E). repeat split; [lia|auto|congruence]. Qed.
  Lemma inch_snoc k j i : inch k j -> into j i -> inch k i.
  Proof. induction 1; intro; [eapply inch_step; eauto; constructor|eapply inch_step; eauto]. Qed.
  Lemma bot_ex : forall r, r < List.length h0 -> exists b, inch r b /\ o_kind (geto h0 b) = KBox.
  Proof.
    induction r as [r IH] using lt_wf_ind. intro L. destruct (o_kind (geto h0 r)) as [|j|j] eqn:E; [exists r; split; [constructor|auto]| |];
      (assert (I : into r j) by (unfold into; rewrite E; auto); destruct (into_lt L I) as (A1 & A2 & _); destruct (IH j A1 A2) as (b & C & K); exists b; split; [eapply inch_step; eauto|auto]).
  Qed.
  (** heaps that differ from the first in data and caches *)
  Definition like (h : heap V) : Prop := List.length h = List.length h0 /\ forall k, o_kind (geto h k) = o_kind (geto h0 k).
  Lemma set_data_ok v : forall f k h, like h -> k < f -> k < List.length h0 ->
    let h' := set_data f h k v in like h' /\ forall j, o_cache (geto h' j) = o_cache (geto h j) /\ (inch k j /\ o_data (geto h' j) = v \/ ~ inch k j /\ o_data (geto h' j) = o_data (geto h j)).
  Proof.
    induction f as [|f IH]; intros k h Lk Hf Hk; [lia|]. cbn [set_data]. cbv zeta.
    set (h1 := match o_kind (geto h k) with KBox => h | KCtl r' | KDag r' => set_data f h r' v end).
    assert (R1 : like h1 /\ forall j, o_cache (geto h1 j) = o_cache (geto h j) /\ ((exists i, into k i /\ inch i j) /\ o_data (geto h1 j) = v \/ ~ (exists i, into k i /\ inch i j) /\ o_data (geto h1 j) = o_data (geto h j))).
    { unfold h1. rewrite (proj2 Lk k). destruct (o_kind (geto h0 k)) as [|i|i] eqn:E.
      - split; auto. intro j. split; auto. right. split; auto. intros (i & [I|I] & _); congruence.
      - assert (I : into k i) by (left; auto). destruct (into_lt Hk I) as (A1 & A2 & _). destruct (IH i h Lk ltac:(lia) A2) as (L' & D). split; auto.
        intro j. destruct (D j) as (C & [[D1 D2]|[D1 D2]]); split; auto; [left; split; eauto|right; split; auto]. intros (i' & I' & X). assert (i' = i) by (eapply into_fun; eauto). subst. auto.
      - assert (I : into k i) by (right; auto). destruct (into_lt Hk I) as (A1 & A2 & _). destruct (IH i h Lk ltac:(lia) A2) as (L' & D). split; auto.
        intro j. destruct (D j) as (C & [[D1 D2]|[D1 D2]]); split; auto; [left; split; eauto|right; split; auto]. intros (i' & I' & X). assert (i' = i) by (eapply into_fun; eauto). subst. auto. }
    destruct R1 as (L1 & D1). replace (k <? List.length h1) with true by (symmetry; apply Nat.ltb_lt; rewrite (proj1 L1); auto).
    assert (Hk1 : k < List.length h1) by (rewrite (proj1 L1); auto).
    split.
    - split; [rewrite seto_len; auto; apply L1|]. intro j. rewrite geto_seto by auto. destruct (Nat.eqb_spec j k) as [->|N]; cbn [o_kind]; apply L1.
    - intro j. rewrite geto_seto by auto. destruct (Nat.eqb_spec j k) as [->|N]; cbn [o_cache o_data].
      + destruct (D1 k) as (C & _). split; auto. left. split; auto. constructor.
      + destruct (D1 j) as (C & [[(i & I & X) D]|[Y D]]); split; auto; [left; split; auto; eapply inch_step; eauto|right; split; auto]. intro X. apply Y. inversion X as [|? i ? I Z]; subst; [congruence|]. exists i; auto.
  Qed.
  Variables (symbols : list symbol) (ws : list V).
  Hypothesis Pl : plain symbols.
  Hypothesis Lw : List.length ws = List.length symbols.
  Notation su := (subst smul symbols ws).
  Definition dn (h : heap V) (k : nat) : Prop := su (o_data (geto h0 k)) (o_data (geto h k)).
  Definition inv (h : heap V) : Prop := like h /\ forall k, k < List.length h0 ->
    (dn h k \/ o_data (geto h k) = o_data (geto h0 k)) /\
    (o_cache (geto h k) = None \/ o_cache (geto h k) = Some (free_syms (o_data (geto h0 k))) \/ o_cache (geto h k) = Some [] /\ dn h k) /\
    (forall j, into k j -> dn h k -> dn h j).
  Definition grow (h h' : heap V) : Prop := forall k, k < List.length h0 -> dn h k -> dn h' k.
  Lemma inv0 : (forall k j, k < List.length h0 -> into k j -> dn h0 k -> dn h0 j) -> inv h0.
  Proof. intro I. split; [split; auto|]. intros k L. split; [now right|]. split; [destruct (B L) as (_ & _ & [-> | ->]); auto|]. intros j J D. eapply I; eauto. Qed.
  Lemma inv_start : inv h0.
  Proof. apply inv0. intros k j L J. unfold dn. destruct (into_lt L J) as (_ & _ & E). now rewrite E. Qed.
  Lemma st_cases k : k < List.length h0 -> (exists s, o_data (geto h0 k) = DSym s) \/ (su (o_data (geto h0 k)) (o_data (geto h0 k)) /\ free_syms (o_data (geto h0 k)) = []).
  Proof. intro L. destruct (B L) as (_ & A & _). destruct (o_data (geto h0 k)); [left; eauto|right; split; auto; constructor|right; split; auto; constructor|contradiction]. Qed.
  Lemma dn_chain h k j : inv h -> k < List.length h0 -> inch k j -> dn h k -> dn h j.
  Proof. intros I L H. induction H as [k|k j i J H IH]; auto. intro D. destruct (into_lt L J) as (_ & L2 & _). apply IH; auto. destruct (proj2 I k L) as (_ & _ & X). eauto. Qed.
  (** reading the property *)
  Lemma free_ok h r fs h1 : inv h -> r < List.length h0 -> free_of h r = (fs, h1) ->
    inv h1 /\ (forall k, o_data (geto h1 k) = o_data (geto h k)) /\ (fs = [] /\ dn h r \/ exists s, o_data (geto h0 r) = DSym s /\ fs = [unscaled s]).
  Proof.
    intros I L. unfold free_of. destruct (proj2 I r L) as (D & C & X). destruct (o_cache (geto h r)) as [l|] eqn:E.
    - intros [= <- <-]. split; auto. split; auto. destruct C as [C|[C|[C D']]]; [discriminate| |injection C as ->; auto]. injection C as ->.
      destruct (st_cases L) as [[s Es]|[Sx Fx]]; [right; exists s; rewrite Es; auto|left; rewrite Fx; split; auto]. destruct D as [D|D]; auto. unfold dn. now rewrite D.
    - intros [= <- <-]. assert (Lh : List.length h = List.length h0) by apply I. rewrite Lh. replace (r <? List.length h0) with true by (symmetry; apply Nat.ltb_lt; auto).
      assert (G : forall k, o_data (geto (seto h r (Obj (o_kind (geto h r)) (o_data (geto h r)) (Some (free_syms (o_data (geto h r)))))) k) = o_data (geto h k)).
      { intro k. rewrite geto_seto by lia. destruct (Nat.eqb_spec k r) as [->|]; reflexivity. }
      assert (R : free_syms (o_data (geto h r)) = [] /\ dn h r \/ exists s, o_data (geto h0 r) = DSym s /\ o_data (geto h r) = DSym s).
      { destruct D as [D|D].
        - left. split; auto. unfold dn in D. inversion D; reflexivity.
        - destruct (st_cases L) as [[s Es]|[Sx Fx]]; [right; exists s; split; congruence|left; rewrite D; split; auto]. unfold dn. now rewrite D. }
      split; [|split; [exact G|]].
      + split; [split; [rewrite seto_len by lia; auto|]|].
        * intro k. rewrite geto_seto by lia. destruct (Nat.eqb_spec k r) as [->|]; cbn [o_kind]; apply (proj1 I).
        * intros k Lk. destruct (proj2 I k Lk) as (Dk & Ck & Xk). split; [|split].
          -- unfold dn. rewrite G. exact Dk.
          -- unfold dn. rewrite G. fold (dn h k). rewrite geto_seto by lia. destruct (Nat.eqb_spec k r) as [->|]; cbn [o_cache]; [right|auto].
             destruct R as [[R1 R2]|(s & R1 & R2)]; [right; rewrite R1; split; auto|left; rewrite R1, R2; reflexivity].
          -- unfold dn. intros j J. rewrite !G. apply Xk; auto.
      + destruct R as [[R1 R2]|(s & R1 & R2)]; [left; auto|right; exists s; rewrite R2; auto].
  Qed.
  Lemma descend_ok h : like h -> forall f r, r < f -> r < List.length h0 -> inch r (descend f h r).
  Proof.
    intros Lk. induction f as [|f IH]; intros r Hf L; [lia|]. cbn [descend]. rewrite (proj2 Lk r). destruct (o_kind (geto h0 r)) as [|j|j] eqn:E; try constructor.
    assert (I : into r j) by (left; auto). destruct (into_lt L I) as (A1 & A2 & _). eapply inch_step; eauto. apply IH; auto; lia.
  Qed.
  (** the dictionary *)
  Lemma sym_eqb_plain2 s t : s_scale s = 1%Q -> s_scale t = 1%Q -> sym_eqb s t = true <-> s = t.
  Proof. destruct t as [n a b q]. cbn [s_scale]. intros Es ->. now apply sym_eqb_plain. Qed.
  Lemma d_get_set' (k j : symbol) (v : V) m : s_scale k = 1%Q -> s_scale j = 1%Q -> Forall (fun p => s_scale (fst p) = 1%Q) m ->
    d_get sym_eqb k (d_set sym_eqb j v m) = if sym_eqb j k then Some v else d_get sym_eqb k m.
  Proof.
    intros Sk Sj. unfold d_get. induction m as [|[a x] m IH]; intro F; cbn [d_set find fst snd]; [destruct (sym_eqb j k); auto|]. inversion F as [|? ? F1 F2]; subst. cbn [fst] in F1.
    destruct (sym_eqb a j) eqn:Ea; cbn [find fst snd].
    - apply sym_eqb_plain2 in Ea; auto. subst. destruct (sym_eqb j k); auto.
    - destruct (sym_eqb a k) eqn:Ek; [|apply IH; auto]. destruct (sym_eqb j k) eqn:Ej; auto. apply sym_eqb_plain2 in Ek; auto. apply sym_eqb_plain2 in Ej; auto. subst. assert (X : sym_eqb k k = true) by (apply sym_eqb_plain2; auto). congruence.
  Qed.
  Lemma set_plain (j : symbol) (v : V) m : s_scale j = 1%Q -> Forall (fun p => s_scale (fst p) = 1%Q) m -> Forall (fun p => s_scale (fst p) = 1%Q) (d_set sym_eqb j v m).
  Proof. intros Sj. induction m as [|[a x] m IH]; intro F; cbn [d_set]; [repeat constructor; auto|]. inversion F; subst. cbn [fst] in *. destruct (sym_eqb a j); constructor; auto. Qed.
  Lemma params_gen : forall (sy : list symbol) (w : list V) m k, List.length w = List.length sy -> Forall (fun s => s_scale s = 1%Q) sy -> NoDup sy -> Forall (fun p => s_scale (fst p) = 1%Q) m -> s_scale k = 1%Q ->
    d_get sym_eqb k (fold_left (fun d p => d_set sym_eqb (fst p) (snd p) d) (combine sy w) m) =
    match sym_index sy k with Ok i => nth_error w i | _ => d_get sym_eqb k m end.
  Proof.
    induction sy as [|s sy IH]; intros w m k L F N M Sk; [reflexivity|]. destruct w as [|x w]; [discriminate|]. cbn [combine fold_left fst snd sym_index]. inversion F; subst. inversion N; subst. cbn [List.length] in L.
    rewrite IH; auto using set_plain. rewrite d_get_set'; auto. destruct (sym_eqb s k) eqn:E; [|destruct (sym_index sy k); reflexivity].
    apply sym_eqb_plain2 in E; auto. subst k. destruct s as [n a b q]. cbn [s_scale] in *. subst. rewrite sym_index_none; auto.
  Qed.
  Lemma look_cases s : s_scale s = 1%Q -> (In s symbols /\ exists x, look_up (params symbols ws) s = Ok x /\ given symbols ws (s_name s) (s_dd s) (s_dc s) x) \/ (~ In s symbols /\ look_up (params symbols ws) s = Err KeyError).
  Proof.
    destruct s as [n a b q]. cbn [s_scale s_name s_dd s_dc]. intros ->. unfold look_up, params. rewrite params_gen; auto; try apply Pl.
    assert (Dec : In (Sym n a b 1%Q) symbols \/ ~ In (Sym n a b 1%Q) symbols).
    { assert (X : forall l, Forall (fun s => s_scale s = 1%Q) l -> In (Sym n a b 1%Q) l \/ ~ In (Sym n a b 1%Q) l).
      { induction 1 as [|y l Hy Hl IH]; [right; auto|]. destruct (sym_eqb y (Sym n a b 1%Q)) eqn:E; [apply sym_eqb_plain in E; auto; left; left; auto|].
        destruct IH as [IH|IH]; [left; right; auto|right]. intros [->|Z]; auto. assert (sym_eqb (Sym n a b 1%Q) (Sym n a b 1%Q) = true) by (apply sym_eqb_plain; auto). congruence. }
      apply X, Pl. }
    destruct Dec as [I|NI].
    - left. split; auto. destruct (@given_in V symbols ws n a b Lw I) as [x (i & E1 & E2)]. exists x. rewrite (sym_index_ok (proj2 Pl) (proj1 Pl) E1), E2. split; auto. exists i; auto.
    - right. split; auto. rewrite sym_index_none; auto. apply Pl.
  Qed.
  Lemma lam_one s x d : (d = DSym s \/ su (DSym s) d) -> given symbols ws (s_name s) (s_dd s) (s_dc s) x -> exists v, lam_data smul [unscaled s] [x] d = Ok v /\ su (DSym s) v.
  Proof.
    intros [->|D] G; [|inversion D; subst; eexists; split; [reflexivity|auto]].
    unfold lam_data. rewrite (@lam_sym_ok V smul [unscaled s] [x] s x).
    - eexists. split; [reflexivity|]. destruct (Qeq_bool (s_scale s) 1) eqn:E; cbn [negb]; [|constructor; auto]. apply Qeq_bool_iff in E. rewrite <- (smul1 x E). constructor; auto.
    - split; [repeat constructor; auto|repeat constructor].
    - exists 0. auto.
  Qed.
  Definition okd (r : nat) : Prop := known symbols (o_data (geto h0 r)).
  Definition fin (h : heap V) (r : nat) : Prop := exists b, inch r b /\ o_kind (geto h0 b) = KBox /\ dn h b.
  Lemma dn_fin h r : inv h -> r < List.length h0 -> dn h r -> fin h r.
  Proof. intros I L D. destruct (bot_ex L) as (b & C & K). exists b. split; auto. split; auto. eapply dn_chain; eauto. Qed.
  Lemma fin_grow h h' r : r < List.length h0 -> grow h h' -> fin h r -> fin h' r.
  Proof. intros L G (b & C & K & D). exists b. split; auto. split; auto. apply G; auto. apply (inch_lt L C). Qed.
  Lemma fin_known h r : r < List.length h0 -> fin h r -> okd r.
  Proof.
    intros L (b & C & K & D). unfold okd. destruct (inch_lt L C) as (_ & _ & ->). unfold dn in D. intros s I. inversion D as [s' x G E1 E2|v E1 E2|E1 E2]; rewrite <- E1 in I; try contradiction.
    destruct I as [<-|[]]. destruct G as (i & G1 & _). eapply nth_error_In; eauto.
  Qed.
  Lemma subs_box_ok h r : inv h -> r < List.length h0 ->
    (subs_box smul (params symbols ws) h r = Err KeyError /\ ~ okd r) \/ (exists h', subs_box smul (params symbols ws) h r = Ok h' /\ inv h' /\ grow h h' /\ fin h' r).
  Proof.
    intros I L. unfold subs_box. destruct (free_of h r) as [fs h1] eqn:E1. destruct (free_ok I L E1) as (I1 & G1 & F1).
    assert (Gr1 : grow h h1) by (intros k _; unfold dn; now rewrite G1).
    destruct F1 as [[-> D]|(s & Es & ->)]. { right. exists h1. split; auto. split; auto. split; auto. apply dn_fin; auto. }
    set (k := descend (List.length h1) h1 r). assert (L1 : List.length h1 = List.length h0) by apply I1.
    assert (C : inch r k) by (apply descend_ok; [apply I1|lia|auto]). destruct (inch_lt L C) as (_ & Lk & Ek). rewrite Es in Ek. symmetry in Ek.
    destruct (free_of h1 k) as [syms h2] eqn:E2. destruct (free_ok I1 Lk E2) as (I2 & G2 & F2).
    assert (Gr2 : grow h1 h2) by (intros j _; unfold dn; now rewrite G2).
    assert (Dk : o_data (geto h2 k) = DSym s \/ su (DSym s) (o_data (geto h2 k))). { destruct (proj2 I2 k Lk) as ([Q|Q] & _); [right; unfold dn in Q; now rewrite Ek in Q|left; congruence]. }
    assert (V1 : (mapM (look_up (params symbols ws)) syms = Err KeyError /\ ~ okd r) \/ exists vs v, mapM (look_up (params symbols ws)) syms = Ok vs /\ lam_data smul syms vs (o_data (geto h2 k)) = Ok v /\ su (DSym s) v).
    { destruct F2 as [[-> Q]|(s' & Es' & ->)].
      - right. exists [], (o_data (geto h2 k)). split; [reflexivity|]. rewrite G2. unfold dn in Q. rewrite Ek in Q. split; [|exact Q]. inversion Q; reflexivity.
      - assert (s' = s) by congruence. subst s'. destruct (@look_cases (unscaled s) eq_refl) as [(In1 & x & X & G)|(NI & X)].
        + right. destruct (@lam_one s x (o_data (geto h2 k)) Dk G) as (v & Y & Z). exists [x], v. split; auto. cbn [mapM]. rewrite X. reflexivity.
        + left. split; [cbn [mapM]; rewrite X; reflexivity|]. intro O. apply NI, O. rewrite Es. now left. }
    destruct V1 as [[-> NO]|(vs & v & -> & W & Sv)]; [left; auto|]. cbn [bind]. rewrite W. cbn [bind]. right.
    assert (L2 : List.length h2 = List.length h0) by apply I2.
    destruct (@set_data_ok v (List.length h2) k h2 (proj1 I2) ltac:(lia) Lk) as (Lk3 & D3). set (h3 := set_data (List.length h2) h2 k v) in *.
    assert (L3 : List.length h3 = List.length h0) by apply Lk3.
    assert (G4 : forall j, o_data (geto (del_cache h3 k) j) = o_data (geto h3 j)). { intro j. unfold del_cache. rewrite geto_seto by lia. destruct (Nat.eqb_spec j k) as [->|]; reflexivity. }
    assert (Ch : forall j, inch k j -> dn (del_cache h3 k) j). { intros j J. unfold dn. rewrite G4. destruct (inch_lt Lk J) as (_ & _ & <-). destruct (D3 j) as (_ & [[_ ->]|[N _]]); [rewrite Ek; auto|contradiction]. }
    assert (Gr3 : grow h2 (del_cache h3 k)). { intros j Lj D. destruct (D3 j) as (_ & [[J _]|[_ Q]]); [auto|]. unfold dn. rewrite G4, Q. exact D. }
    eexists. split; [reflexivity|]. split; [|split].
    - split; [split|].
      + unfold del_cache. rewrite seto_len; lia.
      + intro j. unfold del_cache. rewrite geto_seto by lia. destruct (Nat.eqb_spec j k) as [->|]; cbn [o_kind]; apply Lk3.
      + intros j Lj. destruct (proj2 I2 j Lj) as (Dj & Cj & Xj). split; [|split].
        * destruct Dj as [Dj|Dj]; [left; now apply Gr3|]. destruct (D3 j) as (_ & [[J _]|[_ Q]]); [left; auto|right]. rewrite G4. congruence.
        * unfold del_cache. rewrite geto_seto by lia. destruct (Nat.eqb_spec j k) as [->|]; cbn [o_cache]; [auto|]. destruct (D3 j) as (-> & _). destruct Cj as [Cj|[Cj|[Cj D]]]; auto.
        * intros i J D. destruct (into_lt Lj J) as (_ & Li & _). destruct (D3 j) as (_ & [[Q _]|[_ Q]]); [apply Ch; eapply inch_snoc; eauto|]. apply Gr3; auto. apply Xj; auto. unfold dn in *. rewrite G4, Q in D. exact D.
    - intros j Lj D. auto.
    - destruct (bot_ex Lk) as (b & Cb & Kb). exists b. split; [|split; auto]. clear - C Cb. induction C; auto. eapply inch_step; eauto.
  Qed.
  Lemma fold_boxes : forall rs h, inv h -> Forall (fun r => r < List.length h0) rs ->
    (foldM (fun h r => subs_box smul (params symbols ws) h r) rs h = Err KeyError /\ ~ Forall okd rs) \/
    (exists h', foldM (fun h r => subs_box smul (params symbols ws) h r) rs h = Ok h' /\ inv h' /\ grow h h' /\ Forall (fin h') rs).
  Proof.
    induction rs as [|r rs IH]; intros h I F; cbn [foldM]. { right. exists h. split; auto. split; auto. split; [intros k _; auto|constructor]. }
    inversion F as [|? ? F1 F2]; subst. destruct (subs_box_ok I F1) as [[-> N]|(h1 & -> & I1 & G1 & D1)]; cbn [bind]; [left; split; auto; intro A; inversion A; auto|].
    destruct (IH h1 I1 F2) as [[-> N]|(h2 & -> & I2 & G2 & D2)]; [left; split; auto; intro A; inversion A; auto|]. right. exists h2. split; auto. split; auto. split; [intros k Lk D; auto|]. constructor; auto. eapply fin_grow; eauto.
  Qed.
  Lemma fold_diagrams : forall ds h, inv h -> Forall (Forall (fun r => r < List.length h0)) ds ->
    (foldM (fun h d => foldM (fun h r => subs_box smul (params symbols ws) h r) d h) ds h = Err KeyError /\ ~ Forall (Forall okd) ds) \/
    (exists h', foldM (fun h d => foldM (fun h r => subs_box smul (params symbols ws) h r) d h) ds h = Ok h' /\ inv h' /\ grow h h' /\ Forall (Forall (fin h')) ds).
  Proof.
    induction ds as [|d ds IH]; intros h I F; cbn [foldM]. { right. exists h. split; auto. split; auto. split; [intros k _; auto|constructor]. }
    inversion F as [|? ? F1 F2]; subst. destruct (fold_boxes I F1) as [[-> N]|(h1 & -> & I1 & G1 & D1)]; cbn [bind]; [left; split; auto; intro A; inversion A; auto|].
    destruct (IH h1 I1 F2) as [[-> N]|(h2 & -> & I2 & G2 & D2)]; [left; split; auto; intro A; inversion A; auto|]. right. exists h2. split; auto. split; auto. split; [intros k Lk D; auto|]. constructor; auto.
    rewrite Forall_forall in *. intros r Hr. eapply fin_grow; eauto.
  Qed.
  Lemma core_chain h r d : like h -> core h r d -> exists b, inch r b /\ o_kind (geto h0 b) = KBox /\ d = o_data (geto h b).
  Proof.
    intros Lk. induction 1 as [r K|r r' d K H IH]. { exists r. rewrite <- (proj2 Lk r). repeat split; auto. constructor. }
    destruct IH as (b & C & Kb & E). exists b. rewrite (proj2 Lk r) in K. repeat split; auto. eapply inch_step; eauto.
  Qed.
  Lemma chain_core h r b : like h -> inch r b -> o_kind (geto h0 b) = KBox -> core h r (o_data (geto h b)).
  Proof. intros Lk. induction 1 as [k|k j i I H IH]; intro K; [constructor; now rewrite (proj2 Lk)|]. econstructor; [rewrite (proj2 Lk); exact I|auto]. Qed.
  Lemma inch_bot r b c : inch r b -> inch r c -> o_kind (geto h0 b) = KBox -> o_kind (geto h0 c) = KBox -> b = c.
  Proof.
    induction 1 as [k|k j i I H IH]; intros C Kb Kc.
    - inversion C as [|? ? ? I]; subst; auto. destruct I; congruence.
    - inversion C as [|? j' ? I' C']; subst; [destruct I; congruence|]. assert (j' = j) by (eapply into_fun; eauto). subst. auto.
  Qed.
  Lemma core_st r d : r < List.length h0 -> core h0 r d -> d = o_data (geto h0 r).
  Proof. intros L C. destruct (@core_chain h0 r d) as (b & Cb & _ & ->); auto. { split; auto. } destruct (inch_lt L Cb) as (_ & _ & E). auto. Qed.
  Lemma fast_subs_ok ds : Forall (Forall (fun r => r < List.length h0)) ds -> (forall d r e, In d ds -> In r d -> core h0 r e -> known symbols e) ->
    exists h', fast_subs smul symbols ws h0 ds = Ok h' /\ like h' /\ forall d r, In d ds -> In r d -> exists e e', core h0 r e /\ core h' r e' /\ su e e'.
  Proof.
    intros F K. unfold fast_subs. destruct (fold_diagrams inv_start F) as [[-> N]|(h' & -> & I & _ & D)].
    - exfalso. apply N. rewrite Forall_forall in *. intros d Hd. rewrite Forall_forall. intros r Hr. specialize (F d Hd). rewrite Forall_forall in F. specialize (F r Hr).
      destruct (bot_ex F) as (b & C & Kb). unfold okd. destruct (inch_lt F C) as (_ & _ & ->). apply (K d r); auto. apply chain_core; auto. split; auto.
    - exists h'. split; auto. split; [apply I|]. intros d r Hd Hr. rewrite Forall_forall in D. specialize (D d Hd). rewrite Forall_forall in D. destruct (D r Hr) as (b & C & Kb & Db).
      exists (o_data (geto h0 b)), (o_data (geto h' b)). split; [apply chain_core; auto; split; auto|]. split; [apply chain_core; auto; apply I|exact Db].
  Qed.
  Lemma fast_subs_unknown ds : Forall (Forall (fun r => r < List.length h0)) ds -> (exists d r e s, In d ds /\ In r d /\ core h0 r e /\ In s (free_syms e) /\ ~ In s symbols) ->
    fast_subs smul symbols ws h0 ds = Err KeyError.
  Proof.
    intros F (d & r & e & s & Hd & Hr & C & Hs & N). unfold fast_subs. destruct (fold_diagrams inv_start F) as [[-> _]|(h' & -> & I & _ & D)]; auto. exfalso. apply N.
    rewrite Forall_forall in D, F. specialize (D d Hd). specialize (F d Hd). rewrite Forall_forall in D, F. assert (O := fin_known (F r Hr) (D r Hr)). unfold okd in O. rewrite <- (core_st (F r Hr) C) in O. auto.
  Qed.
  (** PytorchModel *)
  Definition flat_at (r : nat) : Prop := match o_data (geto h0 r) with DSym s => s_scale s = 1%Q | _ => True end.
  Lemma torch_box_ok h r : inv h -> r < List.length h0 -> flat_at r ->
    (torch_box (params symbols ws) h r = Err KeyError /\ ~ okd r) \/ (exists h', torch_box (params symbols ws) h r = Ok h' /\ inv h' /\ grow h h' /\ fin h' r).
  Proof.
    intros I L Fl. unfold torch_box. assert (Lh : List.length h = List.length h0) by apply I.
    assert (Cs : (dn h r /\ (forall s, o_data (geto h r) <> DSym s)) \/ exists s, o_data (geto h0 r) = DSym s /\ o_data (geto h r) = DSym s).
    { destruct (proj2 I r L) as ([D|D] & _).
      - left. split; auto. intros s E. unfold dn in D. rewrite E in D. inversion D.
      - destruct (st_cases L) as [[s Es]|[Sx Fx]]; [right; exists s; split; congruence|left; split; [unfold dn; now rewrite D|]]. intros s E. rewrite D in E. rewrite E in Fx. discriminate. }
    destruct Cs as [[D NS]|(s & Es & Eh)].
    - right. exists h. assert (X : match o_data (geto h r) with DSym s => do v <- look_up (params symbols ws) s; Ok (set_data (List.length h) h r (DVal v)) | _ => Ok h end = Ok h).
      { destruct (o_data (geto h r)) eqn:E; auto. exfalso. eapply NS; eauto. }
      rewrite X. split; auto. split; auto. split; [intros k _; auto|apply dn_fin; auto].
    - rewrite Eh. unfold flat_at in Fl. rewrite Es in Fl. destruct (@look_cases s Fl) as [(In1 & x & X & G)|(NI & X)]; rewrite X; cbn [bind].
      2:{ left. split; auto. intro O. apply NI. destruct s as [n a b q]. cbn [s_scale] in Fl. subst q. apply O. rewrite Es. now left. }
      right. destruct (@set_data_ok (DVal x) (List.length h) r h (proj1 I) ltac:(lia) L) as (Lk3 & D3). set (h3 := set_data (List.length h) h r (DVal x)) in *.
      assert (Sv : su (DSym s) (DVal x)). { rewrite <- (@smul1 (s_scale s) x); [constructor; auto|]. rewrite Fl. reflexivity. }
      assert (Ch : forall j, inch r j -> dn h3 j). { intros j J. unfold dn. destruct (inch_lt L J) as (_ & _ & <-). destruct (D3 j) as (_ & [[_ ->]|[N _]]); [rewrite Es; auto|contradiction]. }
      assert (Gr3 : grow h h3). { intros j Lj D. destruct (D3 j) as (_ & [[J _]|[_ Q]]); [auto|]. unfold dn. rewrite Q. exact D. }
      assert (I3 : inv h3).
      { split; auto. intros j Lj. destruct (proj2 I j Lj) as (Dj & Cj & Xj). split; [|split].
        - destruct Dj as [Dj|Dj]; [left; now apply Gr3|]. destruct (D3 j) as (_ & [[J _]|[_ Q]]); [left; auto|right; congruence].
        - destruct (D3 j) as (-> & _). destruct Cj as [Cj|[Cj|[Cj D]]]; auto.
        - intros i J D. destruct (into_lt Lj J) as (_ & Li & _). destruct (D3 j) as (_ & [[Q _]|[_ Q]]); [apply Ch; eapply inch_snoc; eauto|]. apply Gr3; auto. apply Xj; auto. unfold dn in *. rewrite Q in D. exact D. }
      exists h3. split; auto. split; auto. split; auto. apply dn_fin; auto. apply Ch. constructor.
  Qed.
  Lemma tfold_boxes : forall rs h, inv h -> Forall (fun r => r < List.length h0) rs -> Forall flat_at rs ->
    (foldM (fun h r => torch_box (params symbols ws) h r) rs h = Err KeyError /\ ~ Forall okd rs) \/
    (exists h', foldM (fun h r => torch_box (params symbols ws) h r) rs h = Ok h' /\ inv h' /\ grow h h' /\ Forall (fin h') rs).
  Proof.
    induction rs as [|r rs IH]; intros h I F W; cbn [foldM]. { right. exists h. split; auto. split; auto. split; [intros k _; auto|constructor]. }
    inversion F as [|? ? F1 F2]; subst. inversion W as [|? ? W1 W2]; subst. destruct (torch_box_ok I F1 W1) as [[-> N]|(h1 & -> & I1 & G1 & D1)]; cbn [bind]; [left; split; auto; intro A; inversion A; auto|].
    destruct (IH h1 I1 F2 W2) as [[-> N]|(h2 & -> & I2 & G2 & D2)]; [left; split; auto; intro A; inversion A; auto|]. right. exists h2. split; auto. split; auto. split; [intros k Lk D; auto|]. constructor; auto. eapply fin_grow; eauto.
  Qed.
  Lemma tfold_diagrams : forall ds h, inv h -> Forall (Forall (fun r => r < List.length h0)) ds -> Forall (Forall flat_at) ds ->
    (foldM (fun h d => foldM (fun h r => torch_box (params symbols ws) h r) d h) ds h = Err KeyError /\ ~ Forall (Forall okd) ds) \/
    (exists h', foldM (fun h d => foldM (fun h r => torch_box (params symbols ws) h r) d h) ds h = Ok h' /\ inv h' /\ grow h h' /\ Forall (Forall (fin h')) ds).
  Proof.
    induction ds as [|d ds IH]; intros h I F W; cbn [foldM]. { right. exists h. split; auto. split; auto. split; [intros k _; auto|constructor]. }
    inversion F as [|? ? F1 F2]; subst. inversion W as [|? ? W1 W2]; subst. destruct (tfold_boxes I F1 W1) as [[-> N]|(h1 & -> & I1 & G1 & D1)]; cbn [bind]; [left; split; auto; intro A; inversion A; auto|].
    destruct (IH h1 I1 F2 W2) as [[-> N]|(h2 & -> & I2 & G2 & D2)]; [left; split; auto; intro A; inversion A; auto|]. right. exists h2. split; auto. split; auto. split; [intros k Lk D; auto|]. constructor; auto.
    rewrite Forall_forall in *. intros r Hr. eapply fin_grow; eauto.
  Qed.
  Lemma torch_subs_ok ds : Forall (Forall (fun r => r < List.length h0)) ds -> Forall (Forall flat_at) ds -> (forall d r e, In d ds -> In r d -> core h0 r e -> known symbols e) ->
    exists h', torch_subs symbols ws h0 ds = Ok h' /\ like h' /\ forall d r, In d ds -> In r d -> exists e e', core h0 r e /\ core h' r e' /\ su e e'.
  Proof.
    intros F W K. unfold torch_subs. destruct (tfold_diagrams inv_start F W) as [[-> N]|(h' & -> & I & _ & D)].
    - exfalso. apply N. rewrite Forall_forall in *. intros d Hd. rewrite Forall_forall. intros r Hr. specialize (F d Hd). rewrite Forall_forall in F. specialize (F r Hr).
      destruct (bot_ex F) as (b & C & Kb). unfold okd. destruct (inch_lt F C) as (_ & _ & ->). apply (K d r); auto. apply chain_core; auto. split; auto.
    - exists h'. split; auto. split; [apply I|]. intros d r Hd Hr. rewrite Forall_forall in D. specialize (D d Hd). rewrite Forall_forall in D. destruct (D r Hr) as (b & C & Kb & Db).
      exists (o_data (geto h0 b)), (o_data (geto h' b)). split; [apply chain_core; auto; split; auto|]. split; [apply chain_core; auto; apply I|exact Db].
  Qed.
  Lemma torch_subs_unknown ds : Forall (Forall (fun r => r < List.length h0)) ds -> Forall (Forall flat_at) ds -> (exists d r e s, In d ds /\ In r d /\ core h0 r e /\ In s (free_syms e) /\ ~ In s symbols) ->
    torch_subs symbols ws h0 ds = Err KeyError.
  Proof.
    intros F W (d & r & e & s & Hd & Hr & C & Hs & N). unfold torch_subs. destruct (tfold_diagrams inv_start F W) as [[-> _]|(h' & -> & I & _ & D)]; auto. exfalso. apply N.
    rewrite Forall_forall in D, F. specialize (D d Hd). specialize (F d Hd). rewrite Forall_forall in D, F. assert (O := fin_known (F r Hr) (D r Hr)). unfold okd in O. rewrite <- (core_st (F r Hr) C) in O. auto.
  Qed.
End Facts.
(** the symbols of a model *)
From Coq Require Import Sorted Permutation.
Lemma insert_perm s l : Permutation (insert_sym s l) (s :: l).
Proof. induction l as [|x l IH]; cbn [insert_sym]; auto. destruct (sym_ltb s x); auto. rewrite IH. apply perm_swap. Qed.
Lemma sort_perm l : forall acc, Permutation (fold_left (fun acc s => insert_sym s acc) l acc) (l ++ acc).
Proof. induction l as [|x l IH]; intro acc; cbn [fold_left app]; auto. rewrite IH, insert_perm. symmetry. apply Permutation_middle. Qed.
Definition nm_le (a b : symbol) : Prop := String.leb (s_name a) (s_name b) = true.
Lemma insert_sorted s l : s_scale s = 1%Q -> Forall (fun s => s_scale s = 1%Q) l -> Sorted nm_le l -> Sorted nm_le (insert_sym s l).
Proof.
  intros Ss F H. induction H as [|x l H IH Hd]; cbn [insert_sym]; [repeat constructor|]. inversion F as [|? ? F1 F2]; subst.
  assert (K : sym_ltb s x = true /\ nm_le s x \/ sym_ltb s x = false /\ nm_le x s).
  { unfold sym_ltb, nm_le, String.leb. rewrite (String.compare_antisym (s_name s) (s_name x)). destruct (String.compare (s_name x) (s_name s)) eqn:E; cbn [CompOpp]; auto. rewrite Ss, F1. right. split; reflexivity. }
  destruct K as [[-> K]|[-> K]]; [repeat constructor; auto|]. constructor; auto. destruct l as [|y l]; cbn [insert_sym]; [constructor; auto|]. inversion Hd; subst. destruct (sym_ltb s y); constructor; auto.
Qed.
Lemma sort_sorted l : Forall (fun s => s_scale s = 1%Q) l -> forall acc, Forall (fun s => s_scale s = 1%Q) acc -> Sorted nm_le acc -> Sorted nm_le (fold_left (fun acc s => insert_sym s acc) l acc).
Proof.
  induction 1 as [|x l Hx Hl IH]; intros acc Fa Sa; cbn [fold_left]; auto. apply IH; [|apply insert_sorted; auto]. rewrite Forall_forall in *. intros y Hy. apply (Permutation_in _ (insert_perm x acc)) in Hy. destruct Hy as [<-|Hy]; auto.
Qed.
Lemma existsb_plain s l : s_scale s = 1%Q -> Forall (fun s => s_scale s = 1%Q) l -> existsb (sym_eqb s) l = true <-> In s l.
Proof.
  intros Ss F. rewrite existsb_exists. rewrite Forall_forall in F. split; [intros (x & I & E); apply sym_eqb_plain2 in E; auto; now subst|intro I; exists s; split; auto; now apply sym_eqb_plain2].
Qed.
Lemma sym_set_ok l : Forall (fun s => s_scale s = 1%Q) l -> forall acc, Forall (fun s => s_scale s = 1%Q) acc -> NoDup acc ->
  let r := fold_left (fun acc s => if existsb (sym_eqb s) acc then acc else (acc ++ [s])%list) l acc in NoDup r /\ forall s, In s r <-> In s l \/ In s acc.
Proof.
  induction 1 as [|x l Hx Hl IH]; intros acc Fa Na; cbn [fold_left]; [split; auto; intro; cbn; tauto|]. cbv zeta in *.
  destruct (existsb (sym_eqb x) acc) eqn:E.
  - apply existsb_plain in E; auto. destruct (IH acc Fa Na) as (N & M). split; auto. intro s. rewrite M. cbn [In]. split; [tauto|]. intros [[->|H]|H]; auto.
  - assert (NI : ~ In x acc) by (rewrite <- existsb_plain; auto; congruence).
    destruct (IH (acc ++ [x])%list) as (N & M). { apply Forall_app; split; auto. } { apply (Permutation_NoDup (Permutation_cons_append acc x)). constructor; auto. }
    split; auto. intro s. rewrite M, in_app_iff. cbn [In]. tauto.
Qed.
Lemma model_symbols_ok free : Forall (Forall (fun s => s_scale s = 1%Q)) free ->
  NoDup (model_symbols free) /\ Sorted nm_le (model_symbols free) /\ forall s, In s (model_symbols free) <-> exists l, In l free /\ In s l.
Proof.
  intro F. unfold model_symbols, sym_set. assert (Fc : Forall (fun s => s_scale s = 1%Q) (List.concat free)) by (apply Forall_concat; auto).
  destruct (sym_set_ok Fc (Forall_nil _) (NoDup_nil _)) as (N & M). cbv zeta in *. set (l := fold_left _ (List.concat free) []) in *.
  assert (P := sort_perm l []). rewrite app_nil_r in P. split; [apply (Permutation_NoDup (Permutation_sym P)); auto|]. split.
  - apply sort_sorted; auto. rewrite Forall_forall in *. intros s Hs. apply M in Hs. destruct Hs as [Hs|[]]; auto.
  - intro s. assert (X : In s (fold_left (fun acc s => insert_sym s acc) l []) <-> In s l) by (split; apply Permutation_in; auto; now apply Permutation_sym). rewrite X, M, in_concat. cbn [In]. firstorder.
Qed.
Lemma leb_trans a b c : String.leb a b = true -> String.leb b c = true -> String.leb a c = true.
Proof.
  unfold String.leb. revert b c. induction a as [|x a IH]; intros [|y b] [|z c]; cbn; try reflexivity; try discriminate.
  unfold Ascii.compare. destruct (N.compare_spec (Ascii.N_of_ascii x) (Ascii.N_of_ascii y)); try discriminate; destruct (N.compare_spec (Ascii.N_of_ascii y) (Ascii.N_of_ascii z)); try discriminate; intros P Q;
    destruct (N.compare_spec (Ascii.N_of_ascii x) (Ascii.N_of_ascii z)); try reflexivity; try (exfalso; lia). apply (IH b c); auto.
Qed.
Lemma sorted_by l : Sorted nm_le l -> by_name l.
Proof.
  intro H. apply Sorted_StronglySorted in H; [|intros a b c; unfold nm_le; apply leb_trans]. induction H as [|x l H IH F]; intros i j a b Lt Ea Eb; [destruct i; discriminate|].
  destruct j as [|j]; [lia|]. cbn [nth_error] in Eb. destruct i as [|i]; cbn [nth_error] in Ea; [injection Ea as <-; rewrite Forall_forall in F; apply F; eapply nth_error_In; eauto|]. eapply (IH i j); eauto. lia.
Qed.
Lemma free_plain V (d : datum V) : match d with DArr _ => False | _ => True end -> Forall (fun s => s_scale s = 1%Q) (free_syms d).
Proof. destruct d; intro H; try contradiction; repeat constructor. Qed.
Lemma free_built V (h : heap V) r : built h -> r < List.length h -> fst (free_of h r) = free_syms (o_data (geto h r)).
Proof. intros B L. unfold free_of. destruct (B r L) as (_ & _ & [-> | ->]); reflexivity. Qed.
Lemma in_heap_F V (h : heap V) ds : in_heap h ds -> Forall (Forall (fun r => r < List.length h)) ds.
Proof. intro I. apply Forall_forall. intros d Hd. apply Forall_forall. intros r Hr. eapply I; eauto. Qed.
Lemma dfree V (h : heap V) ds : built h -> in_heap h ds -> Forall (Forall (fun s => s_scale s = 1%Q)) (map (diagram_free h) ds).
Proof.
  intros B I. apply Forall_forall. intros l Hl. apply in_map_iff in Hl. destruct Hl as (d & <- & Hd). unfold diagram_free. apply Forall_concat. apply Forall_forall. intros m Hm. apply in_map_iff in Hm.
  destruct Hm as (r & <- & Hr). assert (L := I d r Hd Hr). rewrite free_built; auto. apply free_plain. apply (B r L).
Qed.
Lemma model_known V (h : heap V) ds : built h -> in_heap h ds -> let sy := model_symbols (map (diagram_free h) ds) in
  plain sy /\ by_name sy /\ forall s, In s sy <-> exists d r e, In d ds /\ In r d /\ core h r e /\ In s (free_syms e).
Proof.
  intros B I. destruct (model_symbols_ok (dfree B I)) as (N & S1 & M). cbv zeta. split; [split; auto|split; [apply sorted_by; auto|]].
  - apply Forall_forall. intros s Hs. apply M in Hs. destruct Hs as (l & Hl & Hs). assert (F := dfree B I). rewrite Forall_forall in F. specialize (F l Hl). rewrite Forall_forall in F. auto.
  - intro s. rewrite M. split.
    + intros (l & Hl & Hs). apply in_map_iff in Hl. destruct Hl as (d & <- & Hd). unfold diagram_free in Hs. apply in_concat in Hs. destruct Hs as (m & Hm & Hs). apply in_map_iff in Hm. destruct Hm as (r & <- & Hr).
      assert (L := I d r Hd Hr). rewrite free_built in Hs; auto. destruct (bot_ex B L) as (b & C & K). exists d, r, (o_data (geto h b)). split; auto. split; auto. split; [apply (@chain_core V h h r b); auto; split; auto|]. destruct (inch_lt B L C) as (_ & _ & <-). exact Hs.
    + intros (d & r & e & Hd & Hr & C & Hs). exists (diagram_free h d). split; [now apply in_map|]. unfold diagram_free. apply in_concat. exists (fst (free_of h r)). split; [apply in_map_iff; exists r; auto|]. assert (L := I d r Hd Hr). rewrite free_built; auto. rewrite <- (core_st B L C). exact Hs.
Qed.
Lemma flat_all V (h : heap V) ds : built h -> in_heap h ds -> (forall d r s, In d ds -> In r d -> core h r (DSym s) -> s_scale s = 1%Q) -> Forall (Forall (flat_at h)) ds.
Proof.
  intros B I H. apply Forall_forall. intros d Hd. apply Forall_forall. intros r Hr. unfold flat_at. assert (L := I d r Hd Hr). destruct (o_data (geto h r)) eqn:E; auto. apply (H d r); auto.
  destruct (bot_ex B L) as (b & C & K). assert (X : core h r (o_data (geto h b))) by (apply (@chain_core V h h r b); auto; split; auto). destruct (inch_lt B L C) as (_ & _ & Eb). rewrite <- Eb, E in X. exact X.
Qed.
