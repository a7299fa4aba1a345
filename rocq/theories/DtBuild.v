(** Building the tree back from the wires of its words and the pairs joined by cups (C79, lemmas only). *)
From Coq Require Import Sorted.
From Verif Require Import PyBase PyFacts TyModel TyFacts DiagModel DiagSpec DiagFacts DiagMisc MiscModel MiscFacts TreeModel TreeSpec TreeFacts TreeRew TdModel TdSpec TdComps TdPairs TdWires TdFix TdPlanar DtModel DtRead.
Close Scope string_scope. Set Implicit Arguments. Unset Strict Implicit.

(** ** Removing an element *)
Lemma remove_val_ok A (eq : A -> A -> bool) (Heq : forall a b, eq a b = true <-> a = b) x l : In x l -> exists l', remove_val eq x l = Ok l' /\ (forall y, y <> x -> (In y l' <-> In y l)) /\ (NoDup l -> NoDup l' /\ ~ In x l') /\ List.length l = S (List.length l') /\ incl l' l.
Proof.
  induction l as [|y l IH]; intros H; [destruct H|]. cbn [remove_val]. destruct (eq y x) eqn:E.
  - apply Heq in E. subst y. exists l. split; [reflexivity|]. split; [|split; [|split; [reflexivity | intros z Hz; now right]]].
    + intros z Hz. cbn. split; [tauto | intros [->|]; [congruence | assumption]].
    + intros N. inversion N; subst. split; assumption.
  - assert (Ne : y <> x) by (intros ->; rewrite (proj2 (Heq x x) eq_refl) in E; discriminate). destruct H as [->|H]; [congruence|]. destruct (IH H) as (l' & E' & M & N & L & Inc). exists (y :: l'). rewrite E'. split; [reflexivity|]. split; [|split; [|split; [cbn; lia | intros z [<-|Hz]; [now left | right; now apply Inc]]]].
    + intros z Hz. cbn. rewrite (M z Hz). tauto.
    + intros Nd. inversion Nd as [|? ? Hy Nd']; subst. destruct (N Nd') as [N1 N2]. split; [constructor; [|exact N1] | intros [->|?]; [congruence | contradiction]]. intros I. apply Hy. now apply Inc.
Qed.
Lemma pair_eqb_iff a b : pair_eqb a b = true <-> a = b.
Proof. destruct a as [x y], b as [x' y']. unfold pair_eqb. cbn [fst snd]. rewrite andb_true_iff, !Nat.eqb_eq. split; [intros [-> ->]; reflexivity | intros [= -> ->]; auto]. Qed.

(** ** Looking for the cup of a wire *)
Definition touch (ti : nat) (b : nat * nat) : Prop := fst b = ti \/ snd b = ti.
Lemma touch_b ti b : ((ti =? fst b)%nat || (ti =? snd b)%nat) = true <-> touch ti b.
Proof. unfold touch. rewrite orb_true_iff, !Nat.eqb_eq. intuition. Qed.
Section Scan.
  Variables (wb : list (option wkey)) (tys : list atom) (wtl : list (wkey * list nat)).
  Lemma scan_none fuel : forall i ti (st : vstate), (forall j b, i <= j -> nth_error (fst (fst st)) j = Some b -> ~ touch ti b) -> scan wb tys wtl fuel i ti st = Ok st.
  Proof.
    induction fuel as [|f IH]; intros i ti st H; [reflexivity|]. cbn [scan]. destruct (nth_error (fst (fst st)) i) as [b|] eqn:E; [|reflexivity]. destruct ((ti =? fst b)%nat || (ti =? snd b)%nat) eqn:T; [exfalso; apply touch_b in T; exact (H i b (le_n _) E T)|]. apply IH. intros j b' L. apply H. lia.
  Qed.
  Lemma scan_one ti (st : vstate) b : In b (fst (fst st)) -> touch ti b -> (forall b', In b' (fst (fst st)) -> touch ti b' -> b' = b) -> NoDup (fst (fst st)) -> forall st', take_cup wb tys wtl ti b st = Ok st' -> incl (fst (fst st')) (fst (fst st)) -> ~ In b (fst (fst st')) ->
    scan wb tys wtl (S (List.length (fst (fst st)))) 0 ti st = Ok st'.
  Proof.
    intros Hin Ht Hu Nd st' E Inc Nb. destruct (In_nth_error _ _ Hin) as (j & Hj). assert (Lj : j < List.length (fst (fst st))) by (apply nth_error_Some; congruence).
    assert (G : forall n i fuel, j = i + n -> n < fuel -> scan wb tys wtl fuel i ti st = Ok st').
    { induction n as [|n IHn]; intros i fuel Ei Lf; (destruct fuel as [|fuel]; [lia|]); cbn [scan].
      - assert (i = j) as -> by lia. rewrite Hj. rewrite (proj2 (touch_b ti b) Ht). rewrite E. cbn [bind]. apply scan_none. intros j' b' _ H' T. apply nth_error_In in H'. assert (b' = b) as -> by (apply Hu; [now apply Inc | exact T]). contradiction.
      - destruct (nth_error (fst (fst st)) i) as [b'|] eqn:Eb; [|apply nth_error_None in Eb; lia]. destruct ((ti =? fst b')%nat || (ti =? snd b')%nat) eqn:T; [|apply IHn; lia]. apply touch_b in T. assert (b' = b) as -> by (apply Hu; [exact (nth_error_In _ _ Eb) | exact T]). assert (i = j); [|lia]. rewrite NoDup_nth_error in Nd. apply Nd; [lia | congruence]. }
    apply (G j 0); lia.
  Qed.
  Lemma upd_last_snoc f k l c : wkey_eqb (c_key c) k = true -> upd_last f k (l ++ [c]) = rmap (fun c' => l ++ [c']) (f c).
  Proof.
    intros H. induction l as [|x l IH]; cbn [app upd_last existsb].
    - rewrite H. destruct (f c); reflexivity.
    - rewrite existsb_app. cbn [existsb]. rewrite H, !orb_true_r. rewrite IH. destruct (f c); reflexivity.
  Qed.
End Scan.

(** ** A list cut into parts *)
Lemma map_concat_cut A B C (f : A -> B) (g : C -> list B) parts : forall L, map f L = List.concat (map g parts) -> exists Ls, L = List.concat Ls /\ Forall2 (fun l p => map f l = g p) Ls parts.
Proof.
  induction parts as [|p parts IH]; intros L E; cbn [map List.concat] in E.
  - exists []. destruct L; [|discriminate]. split; [reflexivity | constructor].
  - assert (E1 : map f (firstn (List.length (g p)) L) = g p) by (rewrite <- firstn_map, E, firstn_app, Nat.sub_diag, firstn_all, firstn_O, app_nil_r; reflexivity).
    assert (E2 : map f (skipn (List.length (g p)) L) = List.concat (map g parts)) by (rewrite <- skipn_map, E, skipn_app, Nat.sub_diag, skipn_all; reflexivity).
    destruct (IH _ E2) as (Ls & EL & F). exists (firstn (List.length (g p)) L :: Ls). split; [cbn; rewrite <- EL; symmetry; apply firstn_skipn | constructor; assumption].
Qed.
Lemma NoDup_app_disjoint A (l m : list A) x : NoDup (l ++ m) -> In x l -> In x m -> False.
Proof. induction l as [|y l IH]; intros N H H'; [destruct H|]. cbn in N. inversion N as [|? ? Ny N']; subst. destruct H as [->|H]; [apply Ny, in_or_app; now right | exact (IH N' H H')]. Qed.
Lemma NoDup_concat_disjoint A B (f : A -> list B) l : NoDup (List.concat (map f l)) -> forall x y z, In x l -> In y l -> In z (f x) -> In z (f y) -> NoDup l -> x = y.
Proof.
  induction l as [|a l IH]; intros N x y z Hx Hy Zx Zy Nl; [destruct Hx|]. cbn in N. inversion Nl as [|? ? Na Nl']; subst. assert (Mem : forall w, In w l -> In z (f w) -> In z (List.concat (map f l))) by (intros w Hw Hz; apply in_concat; exists (f w); split; [now apply in_map | exact Hz]).
  destruct Hx as [->|Hx], Hy as [->|Hy]; [reflexivity | exfalso; exact (NoDup_app_disjoint N Zx (Mem _ Hy Zy)) | exfalso; exact (NoDup_app_disjoint N Zy (Mem _ Hx Zx)) | exact (IH (NoDup_app_remove_l N) x y z Hx Hy Zx Zy Nl')].
Qed.
Lemma sorted_ind_unique l : forall m, StronglySorted (fun a b => n_ind a < n_ind b)%Z l -> StronglySorted ind_le m -> Permutation l m -> l = m.
Proof.
  induction l as [|x l IH]; intros m Sl Sm P; [now apply Permutation_nil in P|]. destruct m as [|y m]; [symmetry in P; now apply Permutation_nil in P|]. inversion Sl as [|? ? Sl' Fl]; subst. inversion Sm as [|? ? Sm' Fm]; subst. rewrite Forall_forall in *.
  assert (x = y) as ->. { assert (I := Permutation_in _ P (or_introl eq_refl)). assert (J := Permutation_in _ (Permutation_sym P) (or_introl eq_refl)). destruct I as [-> | I]; [reflexivity|]. destruct J as [<- | J]; [reflexivity|]. specialize (Fl _ J). specialize (Fm _ I). unfold ind_le in Fm. lia. }
  f_equal. apply IH; auto. now apply Permutation_cons_inv in P.
Qed.
Lemma sorted_rev A (R : A -> A -> Prop) l : StronglySorted R l -> StronglySorted (fun a b => R b a) (rev l).
Proof.
  induction 1 as [|x l Sl IH F]; cbn; [constructor|]. apply sorted_app; [exact IH | repeat constructor|]. intros a b Ha Hb. destruct Hb as [<-|[]]. rewrite Forall_forall in F. apply F. now apply in_rev.
Qed.
Lemma sorted_filter A (R : A -> A -> Prop) f l : StronglySorted R l -> StronglySorted R (filter f l).
Proof. induction 1 as [|x l Sl IH F]; cbn; [constructor|]. destruct (f x); [|exact IH]. constructor; [exact IH|]. apply Forall_forall. intros y Hy. apply filter_In in Hy. rewrite Forall_forall in F. now apply F. Qed.
Lemma sorted_impl A (R R' : A -> A -> Prop) l : (forall x y, In x l -> In y l -> R x y -> R' x y) -> StronglySorted R l -> StronglySorted R' l.
Proof. intros H S0. induction S0 as [|x l Sl IH F]; constructor; [apply IH; intros; apply H; cbn; auto|]. rewrite Forall_forall in *. intros y Hy. apply H; cbn; auto. Qed.
Lemma Forall2_filter A B (R : A -> B -> Prop) f g l m : Forall2 R l m -> (forall x y, R x y -> f x = g y) -> Forall2 R (filter f l) (filter g m).
Proof. intros F H. induction F as [|x y l m Hxy F IH]; cbn; [constructor|]. rewrite (H _ _ Hxy). destruct (g y); [constructor; assumption | exact IH]. Qed.
Lemma Forall2_rev A B (R : A -> B -> Prop) l m : Forall2 R l m -> Forall2 R (rev l) (rev m).
Proof. induction 1 as [|x y l m Hxy F IH]; cbn; [constructor|]. apply Forall2_app; [exact IH | repeat constructor; exact Hxy]. Qed.

Definition key_of (m : node) : wkey := (n_word m, Z.to_nat (n_ind m)).
Section Build.
  Variables (root : node) (ntok : nat) (wc : wcomps) (N : nat) (wd : nat -> wire) (wb : list (option wkey)) (tys : list atom) (wtl : list (wkey * list nat)) (free : list nat) (C0 : cupl).
  Hypotheses (Td : tidy ntok root) (WL : forall i, i < ntok -> word_links root (Z.of_nat i) (nth i wc [])) (Ne : forall m, In m (subtrees root) -> n_typ m <> [])
    (Hinj : forall p q, p < N -> q < N -> wd p = wd q -> p = q)
    (Hwb : forall p m, p < N -> In m (subtrees root) -> fst (fst (wd p)) = n_ind m -> nth_error wb p = Some (Some (key_of m)))
    (Hty : forall p m c k, p < N -> In (m, c) (arcs root) -> wd p = (n_ind c, n_ind m, k) -> k < List.length (n_typ c) -> nth_error tys p = nth_error (n_typ c) k)
    (Hpos : forall m, In m (subtrees root) -> exists L, look wtl (key_of m) = Ok L /\ map wd L = word_wires (n_ind m) (nth (Z.to_nat (n_ind m)) wc []) /\ Forall (fun p => p < N) L)
    (HC0 : Permutation (map (fun b => (wd (fst b), wd (snd b))) C0) (List.concat (map arc_pairs (arcs root)))) (HCN : forall b, In b C0 -> fst b < N /\ snd b < N)
    (Hfree : forall p, In p free -> exists k, wd p = (n_ind root, (-1)%Z, k)).
  Definition belongs (x : node * node) (b : nat * nat) : Prop := In (wd (fst b), wd (snd b)) (arc_pairs x).
  Lemma arc_same x y : In x (arcs root) -> In y (arcs root) -> lo x = lo y -> hi x = hi y -> x = y.
  Proof.
    intros Hx Hy E1 E2. destruct x as [p c], y as [p' c']. destruct (arc_facts Td Hx) as (Sp & Sc & _). destruct (arc_facts Td Hy) as (Sp' & Sc' & _). unfold lo, hi in E1, E2. cbn [fst snd] in E1, E2. assert (D : (n_ind p = n_ind p' /\ n_ind c = n_ind c') \/ (n_ind p = n_ind c' /\ n_ind c = n_ind p')) by lia.
    destruct D as [[D1 D2]|[D1 D2]]; [destruct (one_head Td Hx Hy D2) as [-> ->]; reflexivity|]. exfalso. assert (p = c') as -> by now apply (uniq Td). assert (c = p') as -> by now apply (uniq Td). destruct Td as [D _]. assert (I1 := sub_nodup D Sp). apply arcs_in in Hx. apply arcs_in in Hy. destruct Hy as [_ Hy]. destruct Hx as [_ Hx].
    rewrite inds_eta in I1. inversion I1 as [|? ? Nn _]; subst. apply Nn. apply in_concat. exists (inds p'). split; [now apply in_map|]. rewrite inds_eta. right. apply in_concat. exists (inds c'). split; [now apply in_map | rewrite inds_eta; now left].
  Qed.
  Lemma lo_hi m c : In (m, c) (arcs root) -> (lo (m, c) < hi (m, c))%Z /\ (0 <= lo (m, c))%Z.
  Proof. intros H. destruct (arc_facts Td H) as (_ & _ & _ & R1 & R2 & D). unfold lo, hi. cbn [fst snd]. lia. Qed.
  Lemma cup_inv b : In b C0 -> exists x k, In x (arcs root) /\ k < List.length (n_typ (snd x)) /\ wd (fst b) = (lo x, hi x, List.length (n_typ (snd x)) - 1 - k) /\ wd (snd b) = (hi x, lo x, k) /\ belongs x b.
  Proof.
    intros H. assert (I := Permutation_in _ HC0 (in_map (fun b => (wd (fst b), wd (snd b))) _ _ H)). apply in_concat in I. destruct I as (l & Hl & I). apply in_map_iff in Hl. destruct Hl as (x & <- & Hx). assert (I' := I). unfold arc_pairs in I. apply in_map_iff in I. destruct I as (k & E & Hk). apply in_seq in Hk. injection E as E1 E2. exists x, k. split; [exact Hx|]. split; [lia|]. split; [congruence|]. split; [congruence | exact I'].
  Qed.
  Lemma belongs_inv x b : belongs x b -> exists k, k < List.length (n_typ (snd x)) /\ wd (fst b) = (lo x, hi x, List.length (n_typ (snd x)) - 1 - k) /\ wd (snd b) = (hi x, lo x, k).
  Proof. unfold belongs, arc_pairs. intros I. apply in_map_iff in I. destruct I as (k & E & Hk). apply in_seq in Hk. injection E as E1 E2. exists k. split; [lia|]. split; congruence. Qed.
  Lemma belongs_one x y b : In x (arcs root) -> In y (arcs root) -> belongs x b -> belongs y b -> x = y.
  Proof. intros Hx Hy Bx By. destruct (belongs_inv Bx) as (k & _ & E1 & _). destruct (belongs_inv By) as (k' & _ & E1' & _). apply arc_same; [exact Hx | exact Hy | congruence | congruence]. Qed.
  Lemma cup_one p b b' : In b C0 -> In b' C0 -> touch p b -> touch p b' -> b = b'.
  Proof.
    intros H H' T T'. destruct (cup_inv H) as ([m c] & k & Hx & Lk & E1 & E2 & _). destruct (cup_inv H') as ([m' c'] & k' & Hy & Lk' & E1' & E2' & _). destruct (lo_hi Hx) as [L1 _]. destruct (lo_hi Hy) as [L2 _]. destruct (HCN H) as [N1 N2]. destruct (HCN H') as [N1' N2']. destruct b as [a z], b' as [a' z']. unfold touch in T, T'. cbn [fst snd] in *.
    destruct T as [<-|<-], T' as [-> | ->].
    - f_equal. rewrite E1 in E1'. injection E1' as F1 F2 F3. assert (X := arc_same Hx Hy F1 F2). injection X as -> ->. assert (k = k') as -> by lia. apply Hinj; [assumption | assumption | congruence].
    - exfalso. rewrite E1 in E2'. injection E2' as F1 F2 F3. lia.
    - exfalso. rewrite E2 in E1'. injection E1' as F1 F2 F3. lia.
    - f_equal. rewrite E2 in E2'. injection E2' as F1 F2 F3. assert (X := arc_same Hx Hy F2 F1). injection X as -> ->. assert (k = k') as -> by lia. apply Hinj; [assumption | assumption | congruence].
  Qed.
  Lemma touch_link p i o k b : In b C0 -> touch p b -> wd p = (i, o, k) -> exists x, In x (arcs root) /\ belongs x b /\ ((lo x = i /\ hi x = o) \/ (lo x = o /\ hi x = i)).
  Proof.
    intros H T E. destruct (cup_inv H) as (x & k' & Hx & Lk & E1 & E2 & Bx). exists x. split; [exact Hx|]. split; [exact Bx|]. destruct T as [<-|<-]; rewrite E in *; [left | right]; split; congruence.
  Qed.
  Lemma cup_ex m c k p : In (m, c) (arcs root) -> k < List.length (n_typ c) -> p < N -> wd p = (n_ind m, n_ind c, k) -> exists b e, In b C0 /\ belongs (m, c) b /\ e < N /\ wd e = (n_ind c, n_ind m, List.length (n_typ c) - 1 - k) /\ if (n_ind c <? n_ind m)%Z then b = (e, p) else b = (p, e) /\ p <> e.
  Proof.
    intros H Lk Lp E. destruct (arc_facts Td H) as (_ & _ & _ & _ & _ & D). set (n := List.length (n_typ c)) in *.
    assert (G : forall j, j < n -> exists b, In b C0 /\ wd (fst b) = (lo (m, c), hi (m, c), n - 1 - j) /\ wd (snd b) = (hi (m, c), lo (m, c), j) /\ belongs (m, c) b).
    { intros j Lj. assert (I : In (lo (m, c), hi (m, c), n - 1 - j, (hi (m, c), lo (m, c), j)) (arc_pairs (m, c))). { unfold arc_pairs. cbn [snd]. fold n. apply in_map_iff. exists j. split; [reflexivity|]. apply in_seq. lia. }
      assert (I2 : In (lo (m, c), hi (m, c), n - 1 - j, (hi (m, c), lo (m, c), j)) (List.concat (map arc_pairs (arcs root)))) by (apply in_concat; eexists; split; [exact (in_map arc_pairs _ _ H) | exact I]).
      apply (Permutation_in _ (Permutation_sym HC0)) in I2. apply in_map_iff in I2. destruct I2 as (b & Eb & Hb). injection Eb as E1 E2. exists b. split; [exact Hb|]. split; [exact E1|]. split; [exact E2|]. unfold belongs. rewrite E1, E2. exact I. }
    destruct (Z.ltb_spec (n_ind c) (n_ind m)) as [L|L].
    - destruct (G k Lk) as (b & Hb & E1 & E2 & Bb). destruct (HCN Hb) as [N1 N2]. unfold lo, hi in E1, E2. cbn [fst snd] in E1, E2. rewrite Z.min_r, Z.max_l in E1, E2 by lia. exists b, (fst b). split; [exact Hb|]. split; [exact Bb|]. split; [exact N1|]. split; [exact E1|]. destruct b as [a z]. cbn [fst snd] in *. f_equal. apply Hinj; [assumption | assumption | congruence].
    - destruct (G (n - 1 - k) ltac:(lia)) as (b & Hb & E1 & E2 & Bb). destruct (HCN Hb) as [N1 N2]. unfold lo, hi in E1, E2. cbn [fst snd] in E1, E2. rewrite Z.min_l, Z.max_r in E1, E2 by lia. replace (n - 1 - (n - 1 - k)) with k in E1 by lia. exists b, (snd b). split; [exact Hb|]. split; [exact Bb|]. split; [exact N2|]. split; [exact E2|]. destruct b as [a z]. cbn [fst snd] in *.
      split; [f_equal; apply Hinj; [assumption | assumption | congruence]|]. intros ->. rewrite E2 in E. injection E as F1 F2. lia.
  Qed.
  Definition pos_of (m : node) (p : nat) : Prop := p < N /\ exists o k t, wd p = (n_ind m, o, k) /\ In (o, t) (nth (Z.to_nat (n_ind m)) wc []) /\ k < List.length t.

  (** *** One wire of the part for the child [c] of [m] *)
  Section OneChild.
    Variables (m c : node) (Lc : list nat) (made0 : list child).
    Hypotheses (Hmc : In (m, c) (arcs root)) (HLc : look wtl (key_of c) = Ok Lc) (Fresh : forall r, In r made0 -> c_key r <> key_of c)
      (Full : forall e k, e < N -> wd e = (n_ind c, n_ind m, k) -> k < List.length (n_typ c) -> In e Lc).
    Notation n := (List.length (n_typ c)).
    Notation lft := (n_ind c <? n_ind m)%Z.
    Definition tx_ok (k : nat) (tx : list nat) : Prop := forall q, In q Lc -> (forall j, wd q = (n_ind c, n_ind m, j) -> j < n - k) -> In q tx.
    Definition made_at (k : nat) (made : list child) : Prop := (k = 0 /\ made = made0) \/ (0 < k /\ exists tx, made = made0 ++ [Child (key_of c) (skipn (n - k) (n_typ c)) tx lft] /\ tx_ok k tx).
    Lemma one_wire k p cups tix made : k < n -> p < N -> wd p = (n_ind m, n_ind c, k) -> In p tix -> NoDup cups -> incl cups C0 -> (forall b, In b C0 -> belongs (m, c) b -> touch p b -> In b cups) -> made_at k made ->
      exists cups' tix' made', visit_pos wb tys wtl free (cups, tix, made) p = Ok (cups', tix', made') /\ made_at (S k) made' /\ NoDup cups' /\ (forall b, In b cups' <-> In b cups /\ ~ touch p b) /\ (forall q, q <> p -> In q tix -> In q tix').
    Proof.
      intros Lk Lp Ep Hp Nd Inc Has Ma. destruct (arc_facts Td Hmc) as (_ & Sc & _ & Rm & Rc & D). destruct (cup_ex Hmc Lk Lp Ep) as (b & e & Hb & Bb & Le & Ee & Eb). 
      assert (Tb : touch p b) by (destruct lft; [subst b; now right | destruct Eb as [-> _]; now left]). assert (Hbc := Has b Hb Bb Tb).
      assert (Sl : (snd b =? p) = lft) by (destruct lft; [subst b; apply Nat.eqb_refl | destruct Eb as [-> Nn]; apply Nat.eqb_neq; cbn; congruence]).
      assert (Oe : (if lft then fst b else snd b) = e) by (destruct lft; [now subst b | now destruct Eb as [-> _]]).
      destruct (remove_val_ok Nat.eqb_eq Hp) as (tix' & Et & Mt & _). destruct (remove_val_ok pair_eqb_iff Hbc) as (cups' & Ec & Mc & Nc & _ & Ic). destruct (Nc Nd) as [Nd' Nb].
      assert (Ty := @Hty e m c (n - 1 - k) Le Hmc Ee ltac:(lia)). destruct (nth_error (n_typ c) (n - 1 - k)) as [a|] eqn:Ea; [|apply nth_error_None in Ea; lia].
      assert (Sk : skipn (n - S k) (n_typ c) = a :: skipn (n - k) (n_typ c)). { replace (n - S k) with (n - 1 - k) by lia. replace (n - k) with (S (n - 1 - k)) by lia. clear -Ea. revert Ea. generalize (n - 1 - k) as j. generalize (n_typ c) as l. intros l j. revert l. induction j as [|j IH]; intros l E; (destruct l as [|x l]; [discriminate|]); cbn in *; [now injection E as -> | now apply IH]. }
      assert (He : In e Lc) by (eapply Full; [exact Le | exact Ee | lia]).
      assert (Mk : exists made', (if existsb (fun r => Bool.eqb (c_left r) lft && wkey_eqb (c_key r) (key_of c)) made
                     then upd_last (fun r => do tx <- remove_val Nat.eqb e (c_tix r); Ok (Child (c_key r) (a :: c_typ r) tx (c_left r))) (key_of c) made
                     else do l <- look wtl (key_of c); do tx <- remove_val Nat.eqb e l; Ok (made ++ [Child (key_of c) [a] tx lft])) = Ok made' /\ made_at (S k) made').
      { destruct Ma as [[-> ->] | (L0 & tx & -> & Tx)].
        - assert (Ex : existsb (fun r => Bool.eqb (c_left r) lft && wkey_eqb (c_key r) (key_of c)) made0 = false). { apply not_true_iff_false. intros X. apply existsb_exists in X. destruct X as (r & Hr & X). apply andb_prop in X. destruct X as [_ X]. apply wkey_eqb_iff in X. exact (Fresh Hr X). }
          rewrite Ex, HLc. cbn [bind]. destruct (remove_val_ok Nat.eqb_eq He) as (tx & Ex2 & Mx & _). rewrite Ex2. cbn [bind]. eexists. split; [reflexivity|]. right. split; [lia|]. exists tx. split; [|intros q Hq Hj; apply Mx; [|exact Hq]; intros ->; specialize (Hj _ Ee); lia]. rewrite Sk. rewrite Nat.sub_0_r, skipn_all. reflexivity.
        - assert (Ex : existsb (fun r => Bool.eqb (c_left r) lft && wkey_eqb (c_key r) (key_of c)) (made0 ++ [Child (key_of c) (skipn (n - k) (n_typ c)) tx lft]) = true). { rewrite existsb_app. cbn [existsb c_left c_key]. rewrite Bool.eqb_reflx, (proj2 (wkey_eqb_iff _ _) eq_refl). cbn [andb orb]. apply orb_true_r. }
          rewrite Ex. rewrite upd_last_snoc by (cbn [c_key]; now apply wkey_eqb_iff). cbn [c_tix c_key c_typ c_left]. assert (Ie : In e tx) by (apply Tx; [exact He|]; intros j Ej; rewrite Ee in Ej; injection Ej as <-; lia). destruct (remove_val_ok Nat.eqb_eq Ie) as (tx' & Ex2 & Mx & _). rewrite Ex2. cbn [bind rmap]. eexists. split; [reflexivity|]. right. split; [lia|]. exists tx'. rewrite Sk. split; [reflexivity|].
          intros q Hq Hj. apply Mx; [intros ->; specialize (Hj _ Ee); lia|]. apply Tx; [exact Hq|]. intros j Ej. specialize (Hj j Ej). lia. }
      destruct Mk as (made' & Em & Ma'). exists cups', tix', made'. split; [|split; [exact Ma'|split; [exact Nd'|split]]].
      - unfold visit_pos. assert (Nf : existsb (Nat.eqb p) free = false). { apply not_true_iff_false. intros X. apply existsb_exists in X. destruct X as (q & Hq & X). apply Nat.eqb_eq in X. subst q. destruct (Hfree Hq) as (k' & E). rewrite Ep in E. injection E as F1 F2 F3. lia. }
        rewrite Nf. apply (@scan_one wb tys wtl p (cups, tix, made) b); cbn [fst snd]; [exact Hbc | exact Tb | | exact Nd | | exact Ic | exact Nb].
        + intros b' Hb' Tb'. apply (@cup_one p); auto.
        + unfold take_cup. rewrite Sl, Oe. unfold list_get at 1. rewrite (@Hwb e c Le Sc) by (now rewrite Ee). cbn [bind]. unfold list_get. rewrite Ty. cbn [bind]. rewrite Em. cbn [bind]. rewrite Et. cbn [bind]. rewrite Ec. reflexivity.
      - intros b'. split; [intros I; split; [now apply Ic|]; intros T; assert (b' = b) as -> by (apply (@cup_one p); auto); contradiction | intros [I T]; apply Mc; [intros ->; contradiction | exact I]].
      - intros q Nq Iq. now apply Mt.
    Qed.
    Lemma wires_loop : forall j k Lp cups tix made, map wd Lp = map (fun k => (n_ind m, n_ind c, k)) (seq k j) -> k + j = n -> Forall (fun p => p < N) Lp -> incl Lp tix -> NoDup cups -> incl cups C0 -> (forall p b, In p Lp -> In b C0 -> belongs (m, c) b -> touch p b -> In b cups) -> made_at k made ->
      exists cups' tix' made', foldM (visit_pos wb tys wtl free) Lp (cups, tix, made) = Ok (cups', tix', made') /\ made_at n made' /\ NoDup cups' /\ (forall b, In b cups' <-> In b cups /\ forall p, In p Lp -> ~ touch p b) /\ (forall q, ~ In q Lp -> In q tix -> In q tix').
    Proof.
      induction j as [|j IH]; intros k Lp cups tix made E Ek FN It Nd Inc Has Ma.
      - destruct Lp; [|discriminate]. cbn [foldM]. exists cups, tix, made. split; [reflexivity|]. split; [replace n with k by lia; exact Ma|]. split; [exact Nd|]. split; [intros b; split; [intros; split; [assumption | intros p []] | tauto] | auto].
      - destruct Lp as [|p Lp]; [discriminate|]. cbn [map seq] in E. injection E as Ep E. inversion FN as [|? ? Np FN']; subst. destruct (@one_wire k p cups tix made) as (c1 & t1 & m1 & E1 & Ma1 & Nd1 & Mb & Mt); [lia | exact Np | exact Ep | apply It; now left | exact Nd | exact Inc | intros b Hb Bb Tb; apply (Has p b); auto; now left | exact Ma|].
        assert (Npl : ~ In p Lp). { intros I. assert (I2 := in_map wd _ _ I). rewrite E, Ep in I2. apply in_map_iff in I2. destruct I2 as (k' & Ek' & Hk'). injection Ek' as ->. apply in_seq in Hk'. lia. }
        destruct (IH (S k) Lp c1 t1 m1) as (c2 & t2 & m2 & E2 & Ma2 & Nd2 & Mb2 & Mt2); [exact E | lia | exact FN' | | exact Nd1 | intros b Hb; apply Inc; now apply Mb | | exact Ma1|].
        + intros q Hq. apply Mt; [intros ->; contradiction | apply It; now right].
        + intros q b Hq Hb Bb Tq. apply Mb. split; [apply (Has q b); auto; now right|]. intros Tp. (* one cup, two wires of the same side *)
          assert (Eq := in_map wd _ _ Hq). rewrite E in Eq. apply in_map_iff in Eq. destruct Eq as (k' & Ek' & Hk'). apply in_seq in Hk'. destruct (cup_inv Hb) as (x & kx & Hx & Lx & F1 & F2 & _). destruct x as [mx cx]. destruct (lo_hi Hx) as [Lh _]. destruct Tp as [Tp|Tp], Tq as [Tq|Tq]; [congruence | | | congruence]; rewrite Tp in *; rewrite Tq in *; rewrite Ep in *; rewrite <- Ek' in *; injection F1 as G1 G2 G3; injection F2 as G4 G5 G6; lia.
        + exists c2, t2, m2. split; [cbn [foldM]; rewrite E1; cbn [bind]; exact E2|]. split; [exact Ma2|]. split; [exact Nd2|]. split.
          * intros b. rewrite Mb2, Mb. split; [intros [[I T] A]; split; [exact I|]; intros p' [<-|Hp']; [exact T | now apply A] | intros [I A]; split; [split; [exact I | apply A; now left] | intros p' Hp'; apply A; now right]].
          * intros q Nq Iq. apply Mt2; [intros X; apply Nq; now right|]. apply Mt; [intros ->; apply Nq; now left | exact Iq].
    Qed.
  End OneChild.

  (** *** The parts of a word, one after the other *)
  Definition bef (i : Z) (c c' : node) : Prop := before i (n_ind c, []) (n_ind c', []).
  Definition rec_of (m c : node) (r : child) : Prop := c_key r = key_of c /\ c_typ r = n_typ c /\ c_left r = (n_ind c <? n_ind m)%Z /\
    forall Lc q, look wtl (key_of c) = Ok Lc -> In q Lc -> snd (fst (wd q)) <> n_ind m -> In q (c_tix r).
  Lemma key_inj a b : In a (subtrees root) -> In b (subtrees root) -> key_of a = key_of b -> a = b.
  Proof. intros Ha Hb E. apply (uniq Td Ha Hb). injection E as _ E. destruct Td as [_ R]. assert (Ra := R _ (in_map n_ind _ _ Ha)). assert (Rb := R _ (in_map n_ind _ _ Hb)). lia. Qed.
  Lemma word_in m o t : In m (subtrees root) -> In (o, t) (nth (Z.to_nat (n_ind m)) wc []) <-> In (o, t) (links root (n_ind m)).
  Proof.
    intros H. destruct Td as [_ R]. assert (Rm := R _ (in_map n_ind _ _ H)). destruct (@WL (Z.to_nat (n_ind m)) ltac:(lia)) as [P _]. rewrite Z2Nat.id in P by lia. split; intros I; [exact (Permutation_in _ P I) | exact (Permutation_in _ (Permutation_sym P) I)].
  Qed.
  Lemma nodup_wires : forall l, NoDup (map wd l) -> NoDup l.
  Proof. intros l. apply NoDup_map_inv. Qed.
  Lemma full_pos m c Lc e k : In (m, c) (arcs root) -> look wtl (key_of c) = Ok Lc -> e < N -> wd e = (n_ind c, n_ind m, k) -> k < List.length (n_typ c) -> In e Lc.
  Proof.
    intros H E Le Ee Lk. destruct (arc_facts Td H) as (_ & Sc & _ & Rm & Rc & D). destruct (Hpos Sc) as (L & E' & M & F). rewrite E in E'. injection E' as <-.
    assert (I : In (wd e) (map wd Lc)). { rewrite M, Ee. unfold word_wires. apply in_concat. exists (part_wires (n_ind c) (n_ind m, n_typ c)). split; [apply in_map; apply (word_in (m := c)); [exact Sc|]; exact (links_c H)|]. unfold part_wires. cbn [fst snd]. apply in_map_iff. exists k. split; [reflexivity | apply in_seq; lia]. }
    apply in_map_iff in I. destruct I as (q & Eq & Hq). rewrite Forall_forall in F. assert (q = e) as <- by (apply Hinj; auto). exact Hq.
  Qed.
  Section OneNode.
    Variables (m : node).
    Hypothesis Hm : In m (subtrees root).
    Notation i := (n_ind m).
    Lemma parts_loop parts : forall Ls cups tix made0, StronglySorted (before i) parts -> Forall2 (fun l p => map wd l = part_wires i p) Ls parts -> Forall (fun p => p < N) (List.concat Ls) ->
      NoDup cups -> incl cups C0 ->
      (forall o t, In (o, t) parts -> (exists c, In (m, c) (arcs root) /\ n_ind c = o /\ List.length t = List.length (n_typ c) /\ (forall b, In b C0 -> belongs (m, c) b -> In b cups) /\ (forall p k, p < N -> wd p = (i, o, k) -> k < List.length t -> In p tix) /\ forall r, In r made0 -> c_key r <> key_of c) \/
        ((forall c, In (m, c) (arcs root) -> n_ind c <> o) /\ forall p k b, p < N -> wd p = (i, o, k) -> In b cups -> ~ touch p b)) ->
      exists cups' tix' cs made', foldM (visit_pos wb tys wtl free) (List.concat Ls) (cups, tix, made0) = Ok (cups', tix', made0 ++ made') /\ Forall2 (rec_of m) cs made' /\ StronglySorted (bef i) cs /\ (forall c, In c cs <-> In (m, c) (arcs root) /\ In (n_ind c) (map fst parts)) /\
        NoDup cups' /\ (forall b, In b cups' <-> In b cups /\ forall c, In c cs -> ~ belongs (m, c) b).
    Proof.
      induction parts as [|[o t] parts IH]; intros Ls cups tix made0 Ss F2 FN Nd Inc Pre; inversion F2 as [|Lp ? Ls' ? Ep F2']; subst.
      - cbn [List.concat foldM]. exists cups, tix, [], []. rewrite app_nil_r. split; [reflexivity|]. split; [constructor|]. split; [constructor|]. split; [intros c; cbn; tauto|]. split; [exact Nd|]. intros b. cbn. tauto.
      - cbn [List.concat] in FN |- *. apply Forall_app in FN. destruct FN as [FN1 FN2]. inversion Ss as [|? ? Ss' Fs]; subst. rewrite foldM_app.
        assert (Dif : forall o' t', In (o', t') parts -> o' <> o). { intros o' t' I ->. rewrite Forall_forall in Fs. specialize (Fs _ I). unfold before in Fs. cbn [fst] in Fs. lia. }
        unfold part_wires in Ep. cbn [fst snd] in Ep. destruct (Pre o t (or_introl eq_refl)) as [(c & Hc & Eo & Lt & Hb & Ht & Fr) | [Nc Own]].
        + subst o. destruct (arc_facts Td Hc) as (_ & Sc & _ & Rm & Rc & D). destruct (Hpos Sc) as (Lc & HLc & _). rewrite Lt in Ep.
          assert (Full : forall e k, e < N -> wd e = (n_ind c, i, k) -> k < List.length (n_typ c) -> In e Lc) by (intros e k Le Ee Lk; exact (full_pos Hc HLc Le Ee Lk)).
          assert (Lpin : forall p, In p Lp -> exists k, k < List.length (n_typ c) /\ wd p = (i, n_ind c, k)). { intros p Hp. assert (I := in_map wd _ _ Hp). rewrite Ep in I. apply in_map_iff in I. destruct I as (k & Ek & Hk). apply in_seq in Hk. exists k. split; [lia | congruence]. }
          destruct (@wires_loop m c Lc made0 Hc HLc Fr Full (List.length (n_typ c)) 0 Lp cups tix made0) as (c1 & t1 & m1 & E1 & Ma1 & Nd1 & Mb1 & Mt1).
          { exact Ep. } { lia. } { exact FN1. } { intros p Hp. destruct (Lpin p Hp) as (k & Lk & Ek). rewrite Forall_forall in FN1. apply (Ht p k); [now apply FN1 | exact Ek | lia]. } { exact Nd. } { exact Inc. } { intros p b _ Hb0 Bb _. now apply Hb. } { left. auto. }
          destruct Ma1 as [[Z _] | (_ & tx & Em1 & Tx)]; [exfalso; apply (Ne Sc); now apply length_zero_iff_nil|]. rewrite Nat.sub_diag in Em1. cbn [skipn] in Em1. rewrite E1. cbn [bind]. subst m1. set (r0 := Child (key_of c) (n_typ c) tx (n_ind c <? i)%Z).
          assert (R0 : rec_of m c r0). { unfold rec_of, r0. cbn [c_key c_typ c_left c_tix]. split; [reflexivity|]. split; [reflexivity|]. split; [reflexivity|]. intros Lc' q EL Hq Nq. rewrite HLc in EL. injection EL as <-. apply Tx; [exact Hq|]. intros j Ej. rewrite Ej in Nq. now elim Nq. }
          assert (Tch : forall b, In b C0 -> (exists p, In p Lp /\ touch p b) <-> belongs (m, c) b).
          { intros b Hb0. split.
            - intros (p & Hp & T). destruct (Lpin p Hp) as (k & Lk & Ek). destruct (touch_link Hb0 T Ek) as (x & Hx & Bx & Dx). assert (x = (m, c)) as -> by (apply arc_same; [exact Hx | exact Hc | unfold lo, hi in *; cbn [fst snd] in *; lia | unfold lo, hi in *; cbn [fst snd] in *; lia]). exact Bx.
            - intros Bb. destruct (belongs_inv Bb) as (k & Lk & F1 & F3). cbn [snd] in *. destruct (HCN Hb0) as [N1 N2]. assert (Ex : forall k', k' < List.length (n_typ c) -> exists p, In p Lp /\ wd p = (i, n_ind c, k')).
              { intros k' Lk'. assert (I : In (i, n_ind c, k') (map wd Lp)) by (rewrite Ep; apply in_map_iff; exists k'; split; [reflexivity | apply in_seq; lia]). apply in_map_iff in I. destruct I as (p & Ep' & Hp). eauto. }
              rewrite Forall_forall in FN1. unfold lo, hi in F1, F3. cbn [fst snd] in F1, F3. destruct (Z_lt_ge_dec (n_ind c) i) as [L|L].
              + rewrite Z.min_r, Z.max_l in F1, F3 by lia. destruct (Ex k Lk) as (p & Hp & E). exists p. split; [exact Hp|]. right. apply Hinj; [exact N2 | now apply FN1 | congruence].
              + rewrite Z.min_l, Z.max_r in F1, F3 by lia. destruct (Ex (List.length (n_typ c) - 1 - k) ltac:(lia)) as (p & Hp & E). exists p. split; [exact Hp|]. left. apply Hinj; [exact N1 | now apply FN1 | congruence]. }
          assert (Mb1' : forall b, In b c1 <-> In b cups /\ ~ belongs (m, c) b).
          { intros b. rewrite Mb1. split; intros [I A]; (split; [exact I|]).
            - intros Bb. apply (Tch b (Inc _ I)) in Bb. destruct Bb as (p & Hp & T). exact (A p Hp T).
            - intros p Hp T. apply A. apply (Tch b (Inc _ I)). eauto. }
          destruct (IH Ls' c1 t1 (made0 ++ [r0]) Ss' F2' FN2 Nd1) as (c2 & t2 & cs & made' & E2 & R2 & S2 & I2 & Nd2 & Mb2).
          * intros b Hb0. apply Inc. now apply Mb1'.
          * intros o' t' I. assert (Do := Dif _ _ I). destruct (Pre o' t' (or_intror I)) as [(c' & Hc' & Eo' & Lt' & Hb' & Ht' & Fr') | [Nc' Own']].
            -- left. exists c'. split; [exact Hc'|]. split; [exact Eo'|]. split; [exact Lt'|]. assert (Ncc : c <> c') by (intros ->; congruence). split; [|split].
               ++ intros b Hb0 Bb. apply Mb1'. split; [now apply Hb'|]. intros Bb'. assert (X := belongs_one Hc Hc' Bb' Bb). congruence.
               ++ intros p k Lp0 Ek Lk. apply Mt1; [intros Hp; destruct (Lpin p Hp) as (k' & _ & Ek'); congruence | now apply (Ht' p k)].
               ++ intros r Hr. apply in_app_or in Hr. destruct Hr as [Hr | [<-|[]]]; [now apply Fr' | cbn [c_key r0]]. intros X. apply Ncc. destruct (arc_facts Td Hc') as (_ & Sc' & _). now apply key_inj.
            -- right. split; [exact Nc'|]. intros p k b Lp0 Ek Hb0. apply (Own' p k); auto. now apply Mb1'.
          * exists c2, t2, (c :: cs), (r0 :: made'). split; [etransitivity; [exact E2|]; rewrite <- app_assoc; reflexivity|]. split; [constructor; assumption|]. split; [|split; [|split; [exact Nd2|]]].
            -- constructor; [exact S2|]. apply Forall_forall. intros c' Hc'. apply I2 in Hc'. destruct Hc' as [_ Hc']. apply in_map_iff in Hc'. destruct Hc' as ([o' t'] & Eo' & I'). rewrite Forall_forall in Fs. specialize (Fs _ I'). unfold bef, before in *. cbn [fst] in *. subst o'. exact Fs.
            -- intros c'. cbn [In map fst]. rewrite I2. split; [intros [<-|[A B]]; [split; [exact Hc | now left] | split; [exact A | now right]] | intros [A [B|B]]; [left | right; auto]]. apply (uniq Td); [exact Sc | now destruct (arc_facts Td A) as (_ & ? & _) | exact B].
            -- intros b. rewrite Mb2, Mb1'. cbn [In]. split; [intros [[A B] C]; split; [exact A|]; intros c' [<-|Hc']; [exact B | now apply C] | intros [A B]; split; [split; [exact A | apply B; now left] | intros c' Hc'; apply B; now right]].
        + assert (E1 : foldM (visit_pos wb tys wtl free) Lp (cups, tix, made0) = Ok (cups, tix, made0)).
          { assert (Lpin : forall p, In p Lp -> exists k, wd p = (i, o, k)). { intros p Hp. assert (I := in_map wd _ _ Hp). rewrite Ep in I. apply in_map_iff in I. destruct I as (k & Ek & Hk). exists k. congruence. }
            rewrite Forall_forall in FN1. clear -Lpin FN1 Own. induction Lp as [|p Lp IHp]; [reflexivity|]. cbn [foldM]. assert (Ev : visit_pos wb tys wtl free (cups, tix, made0) p = Ok (cups, tix, made0)).
            { unfold visit_pos. destruct (existsb (Nat.eqb p) free); [reflexivity|]. apply scan_none. intros j b _ Hb. cbn [fst snd] in Hb. destruct (Lpin p (or_introl eq_refl)) as (k & Ek). apply (Own p k); [apply FN1; now left | exact Ek | exact (nth_error_In _ _ Hb)]. }
            rewrite Ev. cbn [bind]. apply IHp; intros; [apply FN1 | apply Lpin]; now right. }
          rewrite E1. cbn [bind]. destruct (IH Ls' cups tix made0 Ss' F2' FN2 Nd Inc) as (c2 & t2 & cs & made' & E2 & R2 & S2 & I2 & Nd2 & Mb2); [intros o' t' I; apply Pre; now right|].
          exists c2, t2, cs, made'. split; [exact E2|]. split; [exact R2|]. split; [exact S2|]. split; [|split; assumption]. intros c. rewrite I2. cbn [map fst In]. split; [intros [A B]; auto | intros [A [B|B]]; [exfalso; exact (Nc c A (eq_sym B)) | auto]].
    Qed.
    Lemma sides_ok cs : StronglySorted (bef i) cs -> (forall c, In c cs -> (0 <= n_ind c)%Z /\ n_ind c <> i) ->
      StronglySorted (fun a b => n_ind a < n_ind b)%Z (rev (filter (fun c => (n_ind c <? i)%Z) cs) ++ rev (filter (fun c => negb (n_ind c <? i)%Z) cs)).
    Proof.
      intros Ss R. apply sorted_app.
      - apply (sorted_impl (R := fun a b => bef i b a)); [|apply sorted_rev, sorted_filter, Ss]. intros x y Hx Hy B. apply in_rev, filter_In in Hx, Hy. destruct Hx as [Hx Lx], Hy as [Hy Ly]. apply Z.ltb_lt in Lx, Ly. destruct (R x Hx), (R y Hy). unfold bef, before in B. cbn [fst] in B. destruct (side_cases i (n_ind x)) as [?|[?|?]], (side_cases i (n_ind y)) as [?|[?|?]]; lia.
      - apply (sorted_impl (R := fun a b => bef i b a)); [|apply sorted_rev, sorted_filter, Ss]. intros x y Hx Hy B. apply in_rev, filter_In in Hx, Hy. destruct Hx as [Hx Lx], Hy as [Hy Ly]. apply negb_true_iff, Z.ltb_ge in Lx, Ly. destruct (R x Hx), (R y Hy). unfold bef, before in B. cbn [fst] in B. destruct (side_cases i (n_ind x)) as [?|[?|?]], (side_cases i (n_ind y)) as [?|[?|?]]; lia.
      - intros x y Hx Hy. apply in_rev, filter_In in Hx, Hy. destruct Hx as [Hx Lx], Hy as [Hy Ly]. apply Z.ltb_lt in Lx. apply negb_true_iff, Z.ltb_ge in Ly. lia.
    Qed.
    Lemma visit_ok tix cups : NoDup cups -> incl cups C0 -> (forall c, In (m, c) (arcs root) -> forall b, In b C0 -> belongs (m, c) b -> In b cups) -> (forall p, In (p, m) (arcs root) -> forall b, In b cups -> ~ belongs (p, m) b) ->
      (forall c p k, In (m, c) (arcs root) -> p < N -> wd p = (i, n_ind c, k) -> k < List.length (n_typ c) -> In p tix) ->
      exists cs rs cups', visit wb tys wtl free (key_of m) tix cups = Ok (rs, cups') /\ Forall2 (rec_of m) cs rs /\ StronglySorted (fun a b => n_ind a < n_ind b)%Z cs /\ (forall c, In c cs <-> In (m, c) (arcs root)) /\
        NoDup cups' /\ (forall b, In b cups' <-> In b cups /\ forall c, In c cs -> ~ belongs (m, c) b).
    Proof.
      intros Nd Inc Hch Hpar Htx. destruct (Hpos Hm) as (L & EL & ML & FL). unfold word_wires in ML. destruct (map_concat_cut ML) as (Ls & -> & F2).
      assert (Rm : (0 <= i < Z.of_nat ntok)%Z) by (destruct Td as [_ R]; apply R; now apply in_map). assert (Wl := @WL (Z.to_nat i) ltac:(lia)). rewrite Z2Nat.id in Wl by lia. destruct Wl as [Pw Sw].
      destruct (@parts_loop (nth (Z.to_nat i) wc []) Ls cups tix [] Sw F2 FL Nd Inc) as (cups' & tix' & cs & made' & E & R & Ss & I & Nd' & Mb).
      - intros o t Hin. apply (word_in o t Hm) in Hin. destruct (links_inv Hin) as [(-> & Er & ->) | [(p & c & A & Ep & Ec & Et) | (p & c & A & Ec & Ep & Et)]].
        + right. split; [intros c A; destruct (arc_facts Td A) as (_ & _ & _ & _ & Rc & _); lia|]. intros p k b Lp Ek Hb T. destruct (touch_link (Inc _ Hb) T Ek) as ([m' c'] & Hx & _ & D). destruct (arc_facts Td Hx) as (_ & _ & _ & R1 & R2 & _). unfold lo, hi in D. cbn [fst snd] in D. lia.
        + left. destruct (arc_facts Td A) as (Sp & _ & _ & R1 & R2 & Dn). assert (p = m) as -> by now apply (uniq Td). exists c. split; [exact A|]. split; [exact Ec|]. split; [subst t; destruct (o <? i)%Z; apply rot_length|]. split; [now apply Hch|]. split; [|intros r []]. intros p k Lp Ek Lk. subst o. apply (Htx c p k A Lp Ek). subst t. destruct (n_ind c <? i)%Z; rewrite rot_length in Lk; exact Lk.
        + right. destruct (arc_facts Td A) as (Sp & Sc & Cc & R1 & R2 & Dn). assert (c = m) as -> by now apply (uniq Td). split.
          * intros c A' X. assert (c = p) as -> by (destruct (arc_facts Td A') as (_ & S' & _); apply (uniq Td); [exact S' | exact Sp | congruence]). assert (Y := arc_same A A'). unfold lo, hi in Y. cbn [fst snd] in Y. specialize (Y ltac:(lia) ltac:(lia)). injection Y as -> _. now apply Dn.
          * intros q k b Lq Ek Hb T. destruct (touch_link (Inc _ Hb) T Ek) as (x & Hx & Bx & D). assert (x = (p, m)) as -> by (apply arc_same; [exact Hx | exact A | unfold lo, hi in *; cbn [fst snd] in *; lia | unfold lo, hi in *; cbn [fst snd] in *; lia]). exact (Hpar p A b Hb Bx).
      - cbn [app] in E. exists (rev (filter (fun c => (n_ind c <? i)%Z) cs) ++ rev (filter (fun c => negb (n_ind c <? i)%Z) cs)), (rev (filter c_left made') ++ rev (filter (fun r => negb (c_left r)) made')), cups'.
        assert (Icl : forall c, In c cs <-> In (m, c) (arcs root)). { intros c. rewrite I. split; [tauto|]. intros A. split; [exact A|]. assert (X := proj2 (word_in _ _ Hm) (links_p A)). exact (in_map fst _ _ X). }
        assert (Imb : forall c, In c (rev (filter (fun c => (n_ind c <? i)%Z) cs) ++ rev (filter (fun c => negb (n_ind c <? i)%Z) cs)) <-> In c cs). { intros c. rewrite in_app_iff, <- !in_rev, !filter_In. destruct (n_ind c <? i)%Z; cbn; intuition. }
        split; [unfold visit; rewrite EL; cbn [bind]; match goal with |- bind ?e _ = _ => replace e with (@Ok vstate (cups', tix', made')) by (symmetry; exact E) end; reflexivity|]. split; [|split; [|split; [|split; [exact Nd'|]]]].
        + apply Forall2_app; apply Forall2_rev; apply Forall2_filter; auto; intros x y (_ & _ & X & _); now rewrite X.
        + apply sides_ok; [exact Ss|]. intros c Hc. apply Icl in Hc. destruct (arc_facts Td Hc) as (_ & _ & _ & _ & R2 & D). split; [lia | exact D].
        + intros c. now rewrite Imb.
        + intros b. rewrite Mb. split; intros [A B]; (split; [exact A|]); intros c Hc; apply B; now apply Imb.
    Qed.
  End OneNode.

  (** *** The whole tree *)
  Lemma nodup_arcs m : In m (subtrees root) -> NoDup (arcs m).
  Proof. intros H. destruct Td as [D _]. assert (Dm := sub_nodup D H). apply (Permutation_NoDup (inds_arcs m)) in Dm. inversion Dm as [|? ? _ D']; subst. exact (NoDup_map_inv _ _ D'). Qed.
  Lemma nodup_kids m : In m (subtrees root) -> NoDup (n_children m).
  Proof. intros H. assert (D := nodup_arcs H). rewrite arcs_eta in D. apply NoDup_app_remove_r in D. exact (NoDup_map_inv _ _ D). Qed.
  Lemma arcs_sub m x : In m (subtrees root) -> In x (arcs m) -> In x (arcs root).
  Proof. destruct x as [p c]. intros H A. apply arcs_in in A. destruct A as [A B]. apply arcs_in. split; [exact (sub_trans H A) | exact B]. Qed.
  Lemma build_ok f : forall m tix par cups, In m (subtrees root) -> List.length (arcs m) < f -> linked par m -> NoDup cups -> incl cups C0 -> (forall x b, In x (arcs m) -> In b C0 -> belongs x b -> In b cups) -> (forall p, In (p, m) (arcs root) -> forall b, In b cups -> ~ belongs (p, m) b) ->
    (forall c p k, In (m, c) (arcs root) -> p < N -> wd p = (n_ind m, n_ind c, k) -> k < List.length (n_typ c) -> In p tix) ->
    exists cups', build wb tys wtl free f (key_of m) (n_typ m) tix par cups = Ok (canon m, cups') /\ NoDup cups' /\ (forall b, In b cups' <-> In b cups /\ forall x, In x (arcs m) -> ~ belongs x b).
  Proof.
    induction f as [|f IH]; intros m tix par cups Hm Lf Lk Nd Inc Has Hpar Htx; [lia|]. cbn [build].
    assert (Kid : forall c, In (m, c) (arcs root) <-> In c (n_children m)) by (intros c; rewrite arcs_in; tauto).
    destruct (@visit_ok m Hm tix cups Nd Inc) as (cs & rs & c1 & Ev & F2 & Ss & Ic & Nd1 & Mb1).
    { intros c Hc b Hb Bb. apply (Has (m, c) b); auto. rewrite arcs_eta. apply in_or_app. left. apply in_map. now apply Kid. } { exact Hpar. } { exact Htx. }
    rewrite Ev. cbn [bind fst snd]. assert (Da := nodup_arcs Hm). rewrite arcs_eta in Da.
    assert (Ncs : NoDup cs). { clear -Ss. induction Ss as [|x l Sl IHl F]; constructor; [|exact IHl]. intros H. rewrite Forall_forall in F. specialize (F x H). lia. }
    assert (Pc : Permutation cs (n_children m)) by (apply NoDup_Permutation; [exact Ncs | exact (nodup_kids Hm) | intros c; rewrite Ic; apply Kid]).
    assert (Ri : (0 <= n_ind m)%Z) by (destruct Td as [_ R]; specialize (R _ (in_map n_ind _ _ Hm)); lia).
    assert (G : forall cs1 rs1 ns cups1, Forall2 (rec_of m) cs1 rs1 -> NoDup cs1 -> (forall c, In c cs1 -> In c (n_children m)) -> NoDup cups1 -> incl cups1 c1 -> (forall c x b, In c cs1 -> In x (arcs c) -> In b C0 -> belongs x b -> In b cups1) ->
      exists cups2, foldM (fun '(ns, cups) c => do (z : node * cupl) <- build wb tys wtl free f (c_key c) (c_typ c) (c_tix c) (Some (Z.of_nat (snd (key_of m)))) cups; Ok (ns ++ [fst z], snd z)) rs1 (ns, cups1) = Ok (ns ++ map canon cs1, cups2) /\ NoDup cups2 /\ (forall b, In b cups2 <-> In b cups1 /\ forall c x, In c cs1 -> In x (arcs c) -> ~ belongs x b)).
    { induction cs1 as [|c cs1 IHc]; intros rs1 ns cups1 F Nc Sub N1 I1 H1; inversion F as [|? r ? rs' Rc F']; subst.
      - cbn [foldM map]. exists cups1. rewrite app_nil_r. split; [reflexivity|]. split; [exact N1|]. intros b. cbn. tauto.
      - cbn [foldM]. assert (Hc : In c (n_children m)) by (apply Sub; now left). assert (Sc := sub_child Hm Hc). assert (Ac : In (m, c) (arcs root)) by now apply Kid. destruct Rc as (K1 & K2 & K3 & K4). rewrite K1, K2. inversion Nc as [|? ? Nc1 Nc2]; subst.
        destruct (IH c (c_tix r) (Some (Z.of_nat (snd (key_of m)))) cups1 Sc) as (c2 & E2 & N2 & M2).
        + assert (X : List.length (arcs c) < List.length (arcs m)); [|lia]. rewrite (arcs_eta m), app_length, map_length. assert (1 <= List.length (n_children m)) by (destruct (n_children m); [destruct Hc | cbn; lia]). assert (List.length (arcs c) <= List.length (List.concat (map arcs (n_children m)))); [|lia]. clear -Hc. induction (n_children m) as [|a l IHl]; [destruct Hc|]. cbn [map List.concat]. rewrite app_length. destruct Hc as [->|Hc]; [lia | specialize (IHl Hc); lia].
        + cbn [snd key_of]. rewrite Z2Nat.id by lia. clear -Lk Hc. destruct Lk as [q w i0 t0 cs0 F]. cbn [n_children n_ind] in *. rewrite Forall_forall in F. now apply F.
        + exact N1.
        + intros b Hb. apply Inc. apply Mb1. now apply I1.
        + intros x b Hx. apply (H1 c); [now left | exact Hx].
        + intros p Hp b Hb. destruct (one_head Td Hp Ac eq_refl) as [-> _]. apply I1, Mb1 in Hb. destruct Hb as [_ Hb]. apply Hb. now apply Ic.
        + intros c' p k Ac' Lp Ek Lk'. destruct (Hpos Sc) as (Lc & EL & ML & FL). apply (K4 Lc); [exact EL | |].
          * assert (I : In (wd p) (map wd Lc)). { rewrite ML, Ek. unfold word_wires. apply in_concat. eexists. split; [exact (in_map (part_wires (n_ind c)) _ _ (proj2 (word_in _ _ Sc) (links_p Ac')))|]. unfold part_wires. cbn [fst snd]. apply in_map_iff. exists k. split; [reflexivity | apply in_seq]. destruct (n_ind c' <? n_ind c)%Z; rewrite rot_length; lia. }
            apply in_map_iff in I. destruct I as (q & Eq & Hq). rewrite Forall_forall in FL. assert (q = p) as <- by (apply Hinj; auto). exact Hq.
          * rewrite Ek. cbn [fst snd]. intros X. assert (Y := arc_same Ac Ac'). unfold lo, hi in Y. cbn [fst snd] in Y. specialize (Y ltac:(lia) ltac:(lia)). injection Y as -> _. destruct (arc_facts Td Ac') as (_ & _ & _ & _ & _ & Dn). now apply Dn.
        + rewrite E2. cbn [bind fst snd]. destruct (IHc rs' (ns ++ [canon c]) c2 F' Nc2) as (c3 & E3 & N3 & M3).
          * intros c' Hc'. apply Sub. now right.
          * exact N2.
          * intros b Hb. apply I1. now apply M2.
          * intros c' x b Hc' Hx Hb Bx. apply M2. split; [apply (H1 c' x); auto; now right|]. intros y Hy By. assert (Hc'' : In c' (n_children m)) by (apply Sub; now right). assert (x = y) as <- by (apply (@belongs_one x y b); [exact (arcs_sub (sub_child Hm Hc'') Hx) | exact (arcs_sub Sc Hy) | exact Bx | exact By]). assert (c = c') as <- by (apply (@NoDup_concat_disjoint _ _ arcs (n_children m) (NoDup_app_remove_l Da) c c' x); auto; exact (nodup_kids Hm)). contradiction.
          * exists c3. split; [etransitivity; [exact E3|]; rewrite <- app_assoc; reflexivity|]. split; [exact N3|]. intros b. rewrite M3, M2. split; [intros [[A B] C]; split; [exact A|]; intros c' x [<-|Hc'] Hx; [now apply B | now apply (C c')] | intros [A B]; split; [split; [exact A|]; intros x Hx; apply (B c); [now left | exact Hx] | intros c' x Hc' Hx; apply (B c'); [now right | exact Hx]]]. }
    destruct (G cs rs [] c1 F2 Ncs) as (c2 & E2 & N2 & M2).
    - intros c Hc. apply Kid. now apply Ic.
    - exact Nd1.
    - intros b Hb. exact Hb.
    - intros c x b Hc Hx Hb Bx. apply Ic in Hc. assert (Hk : In c (n_children m)) by now apply Kid. assert (Sc := sub_child Hm Hk). apply Mb1. split; [apply (Has x b); auto; rewrite arcs_eta; apply in_or_app; right; apply in_concat; exists (arcs c); split; [now apply in_map | exact Hx]|]. intros c' Hc' By. apply Ic in Hc'. assert (x = (m, c')) as -> by (apply (@belongs_one x (m, c') b); [exact (arcs_sub Sc Hx) | exact Hc' | exact Bx | exact By]).
      apply (NoDup_app_disjoint Da (x := (m, c'))); [apply in_map; now apply Kid | apply in_concat; exists (arcs c); split; [now apply in_map | exact Hx]].
    - exists c2. match goal with |- bind ?e _ = _ /\ _ => replace e with (@Ok (list node * cupl) ([] ++ map canon cs, c2)) by (symmetry; exact E2) end. cbn [bind fst snd app]. split; [|split; [exact N2|]].
      + f_equal. f_equal. cbn [key_of fst snd]. rewrite Z2Nat.id by lia. assert (Es : map canon cs = sort_ind (map canon (n_children m))).
        { destruct (sort_ind_spec (map canon (n_children m))) as (S1 & P1 & _). apply sorted_ind_unique; [|exact S1 | rewrite P1; now apply Permutation_map]. clear -Ss. induction Ss as [|x l Sl IHl F]; cbn; constructor; [exact IHl|]. rewrite Forall_forall in *. intros y Hy. apply in_map_iff in Hy. destruct Hy as (z & <- & Hz). rewrite !canon_ind. now apply F. }
        rewrite Es. destruct Lk. reflexivity.
      + intros b. rewrite M2, Mb1. split.
        * intros [[A B] C]. split; [exact A|]. intros x Hx. rewrite arcs_eta in Hx. apply in_app_or in Hx. destruct Hx as [Hx|Hx]; [apply in_map_iff in Hx; destruct Hx as (c & <- & Hc); apply B, Ic; now apply Kid|]. apply in_concat in Hx. destruct Hx as (l & Hl & Hx). apply in_map_iff in Hl. destruct Hl as (c & <- & Hc). apply (C c); [apply Ic; now apply Kid | exact Hx].
        * intros [A B]. split; [split; [exact A|]; intros c Hc; apply B; rewrite arcs_eta; apply in_or_app; left; apply in_map, Kid, Ic, Hc | intros c x Hc Hx; apply B; rewrite arcs_eta; apply in_or_app; right; apply in_concat; exists (arcs c); split; [apply in_map, Kid, Ic, Hc | exact Hx]].
  Qed.
End Build.
