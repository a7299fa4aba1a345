(** Planar trees are converted to their pregroup diagrams (C68, lemmas only). *)
From Coq Require Import Sorted.
From Verif Require Import PyBase PyFacts TyModel TyFacts DiagModel DiagSpec DiagFacts DiagMisc MiscModel MiscFacts TreeModel TreeSpec TreeFacts TreeRew TdModel TdSpec TdComps TdPairs TdWires TdFix TdDraw.
Close Scope string_scope. Set Implicit Arguments. Unset Strict Implicit.

(** ** Lists *)
Lemma rev_seq_map s n : rev (seq s n) = map (fun k => s + (n - 1 - k)) (seq 0 n).
Proof.
  apply nth_ext with (d := 0) (d' := s + (n - 1 - 0)); [now rewrite rev_length, map_length, !seq_length|]. intros k Hk. rewrite rev_length, seq_length in Hk. rewrite rev_nth by now rewrite seq_length. rewrite seq_length, seq_nth by lia. rewrite (map_nth (fun k => s + (n - 1 - k)) (seq 0 n) 0 k), seq_nth by lia. lia.
Qed.
Lemma seq_map s n : seq s n = map (fun k => s + k) (seq 0 n).
Proof. apply nth_ext with (d := 0) (d' := s + 0); [now rewrite map_length, !seq_length|]. intros k Hk. rewrite seq_length in Hk. rewrite seq_nth by lia. rewrite (map_nth (fun k => s + k) (seq 0 n) 0 k), seq_nth by lia. lia. Qed.
Lemma combine_maps A B C (f : A -> B) (g : A -> C) l : combine (map f l) (map g l) = map (fun x => (f x, g x)) l.
Proof. induction l as [|x l IH]; [reflexivity|]. cbn. now rewrite IH. Qed.
Lemma Forall2_maps A B C (R : B -> C -> Prop) (f : A -> B) (g : A -> C) l : (forall x, In x l -> R (f x) (g x)) -> Forall2 R (map f l) (map g l).
Proof. induction l as [|x l IH]; intros H; cbn; constructor; [apply H; now left | apply IH; intros; apply H; now right]. Qed.
Lemma Forall2_in_l A B (R : A -> B -> Prop) l m : Forall2 R l m -> forall x, In x l -> exists y, In y m /\ R x y.
Proof. induction 1 as [|a b l m H F IH]; intros x Hx; [destruct Hx|]. destruct Hx as [<- | Hx]; [exists b; split; [now left | exact H]|]. destruct (IH x Hx) as (y & Hy & E). exists y. split; [now right | exact E]. Qed.
Lemma pos_nodup A (W : list A) L LW : Forall2 (fun p w => nth_error W p = Some w) L LW -> NoDup LW -> NoDup L.
Proof.
  induction 1 as [|p w L LW H F IH]; intros N; [constructor|]. inversion N as [|? ? N1 N2]; subst. constructor; [|now apply IH]. intros I. destruct (Forall2_in_l F I) as (w' & Hw & E). apply N1. congruence.
Qed.
Lemma pos_perm A (W : list A) L LW : Forall2 (fun p w => nth_error W p = Some w) L LW -> Permutation LW W -> NoDup W -> Permutation (seq 0 (List.length W)) L.
Proof.
  intros F P N. symmetry. assert (NL : NoDup L) by (eapply pos_nodup; [exact F|]; apply (Permutation_NoDup (Permutation_sym P) N)).
  assert (E : List.length L = List.length W) by (rewrite <- (Permutation_length P); clear -F; induction F; cbn; auto).
  apply NoDup_Permutation_bis; [exact NL | rewrite seq_length; lia|]. intros p Hp. destruct (Forall2_in_l F Hp) as (w & _ & Ew). apply in_seq. split; [lia|]. apply nth_error_Some. congruence.
Qed.
Lemma pick B (f : nat -> list B) a n : a < n -> (forall i, i <> a -> f i = []) -> List.concat (map f (seq 0 n)) = f a.
Proof.
  intros L H. assert (G : forall s m, List.concat (map f (seq s m)) = if (s <=? a)%nat && (a <? s + m)%nat then f a else []).
  { intros s m. revert s. induction m as [|m IH]; intros s; cbn [seq map List.concat]; [destruct (Nat.leb_spec s a), (Nat.ltb_spec a (s + 0)); cbn; auto; lia|]. rewrite IH. destruct (Nat.eq_dec s a) as [->|Ns].
    - destruct (Nat.leb_spec (S a) a), (Nat.leb_spec a a), (Nat.ltb_spec a (a + S m)); cbn [andb]; try lia. now rewrite app_nil_r.
    - rewrite (H s Ns). cbn [app]. destruct (Nat.leb_spec (S s) a), (Nat.leb_spec s a), (Nat.ltb_spec a (S s + m)), (Nat.ltb_spec a (s + S m)); cbn [andb]; auto; lia. }
  rewrite G. destruct (Nat.leb_spec 0 a), (Nat.ltb_spec a (0 + n)); cbn [andb]; auto; lia.
Qed.
Lemma concat_swap A B C (f : A -> B -> list C) l m : Permutation (List.concat (map (fun i => List.concat (map (f i) m)) l)) (List.concat (map (fun x => List.concat (map (fun i => f i x) l)) m)).
Proof.
  induction l as [|a l IH]; cbn [map List.concat]; [induction m; cbn; auto|]. rewrite IH. symmetry. apply (concat_split (fun x => f a x)).
Qed.
Lemma joins_map A B (f : A -> B) ls : forall ws, joins ls (map f ws) = (map (fun p => (f (fst p), f (snd p))) (fst (joins ls ws)), map f (snd (joins ls ws))).
Proof.
  induction ls as [|[[l b] r] ls IH]; intros ws; [reflexivity|]. cbn [joins]. rewrite skipn_map, firstn_map. destruct (skipn (List.length l) ws) as [|x [|y w2]]; cbn [map]; [apply IH | apply IH|].
  destruct b; try (now rewrite IH).
  - rewrite <- map_app, IH. destruct (joins ls (firstn (List.length l) ws ++ w2)). reflexivity.
  - change (f y :: f x :: map f w2) with (map f (y :: x :: w2)). rewrite <- map_app. apply IH.
Qed.
Lemma sorted_unique_lt l m : StronglySorted lt l -> StronglySorted lt m -> Permutation l m -> l = m.
Proof.
  revert m. induction l as [|x l IH]; intros m Sl Sm P; [now apply Permutation_nil in P|]. destruct m as [|y m]; [symmetry in P; now apply Permutation_nil in P|]. inversion Sl as [|? ? Sl' Fl]; subst. inversion Sm as [|? ? Sm' Fm]; subst. rewrite Forall_forall in *.
  assert (x = y) as ->. { assert (I := Permutation_in _ P (or_introl eq_refl)). assert (J := Permutation_in _ (Permutation_sym P) (or_introl eq_refl)). destruct I as [-> | I]; [reflexivity|]. destruct J as [<- | J]; [reflexivity|]. specialize (Fl _ J). specialize (Fm _ I). lia. }
  f_equal. apply IH; auto. now apply Permutation_cons_inv in P.
Qed.
Lemma seq_sorted n : forall s, StronglySorted lt (seq s n).
Proof. induction n as [|n IH]; intros s; cbn; constructor; [apply IH|]. apply Forall_forall. intros x Hx. apply in_seq in Hx. lia. Qed.
Lemma rank_seq N x : x < N -> rank (seq 0 N) x = x.
Proof.
  intros H. replace N with (x + (N - x)) by lia. rewrite seq_app, rank_app, rank_low, rank_high, seq_length; [lia | |]; intros y Hy; apply in_seq in Hy; lia.
Qed.

Section Planar.
  Variables (root : node) (ntok : nat) (wc : wcomps) (A : list (node * node)).
  Hypotheses (Td : tidy ntok root) (Pl : planar root) (PA : Permutation A (arcs root)) (Lw : List.length wc = ntok) (WL : forall i, i < ntok -> word_links root (Z.of_nat i) (nth i wc [])).
  Notation W := (wires wc).
  Lemma root_range : (0 <= n_ind root < Z.of_nat ntok)%Z.
  Proof. destruct Td as [_ R]. apply R. rewrite inds_eta. now left. Qed.
  Lemma in_word i o t : i < ntok -> In (o, t) (links root (Z.of_nat i)) <-> In (o, t) (nth i wc []).
  Proof. intros L. destruct (WL L) as [P _]. split; intros H; [exact (Permutation_in _ (Permutation_sym P) H) | exact (Permutation_in _ P H)]. Qed.
  Lemma word_keys i : i < ntok -> NoDup (map fst (nth i wc [])).
  Proof.
    intros L. destruct (WL L) as [_ Sd]. induction Sd as [|x l Sl IH F]; cbn; constructor; [|exact IH]. intros I. apply in_map_iff in I. destruct I as (y & E & Hy). rewrite Forall_forall in F. specialize (F y Hy). unfold before in F. rewrite E in F. lia.
  Qed.
  Lemma word_one i o t t' : i < ntok -> In (o, t) (nth i wc []) -> In (o, t') (nth i wc []) -> t = t'.
  Proof. intros L H H'. assert (E := nodup_inj (word_keys L) H H' eq_refl). congruence. Qed.
  Lemma W_sorted : StronglySorted wlt W.
  Proof. apply wires_sorted. intros j Hj. cbn [Z.add]. apply WL. lia. Qed.
  Lemma arc_part x : In x (arcs root) -> exists tr, List.length tr = List.length (n_typ (snd x)) /\ (0 <= lo x)%Z /\ (lo x < hi x)%Z /\ (hi x < Z.of_nat ntok)%Z /\ In (hi x, rot (-1) tr) (links root (lo x)) /\ In (lo x, tr) (links root (hi x)).
  Proof.
    destruct x as [p c]. intros H. destruct (arc_facts Td H) as (_ & _ & _ & Rp & Rc & Ne). assert (Lp := links_p H). assert (Lc := links_c H). unfold lo, hi. cbn [fst snd]. destruct (Z.ltb_spec (n_ind c) (n_ind p)) as [L|L].
    - exists (rot 1 (n_typ c)). rewrite rot_rl, Z.min_r, Z.max_l by lia. repeat split; [apply rot_length | lia | lia | lia | exact Lc | exact Lp].
    - exists (n_typ c). rewrite Z.min_l, Z.max_r by lia. repeat split; [lia | lia | lia | exact Lp | exact Lc].
  Qed.
  (** the tables *)
  Variables (ds : list wdict) (free : list nat).
  Hypothesis ED : word_dicts 0 wc [] = (ds, free).
  Lemma tables : List.length ds = ntok /\ (forall j o t, j < ntok -> In (o, t) (nth j wc []) -> exists s, d_get Z.eqb o (nth j ds []) = Some (seq s (List.length t)) /\ covers W s (List.length t) (Z.of_nat j) o) /\
    exists s, free = seq s (List.length (n_typ root)) /\ covers W s (List.length (n_typ root)) (n_ind root) (-1)%Z.
  Proof.
    assert (G := @word_dicts_ok wc [] 0%Z []). cbn [List.length] in G. rewrite ED in G. cbn [app] in G. change (wires_from 0 wc) with W in G. destruct G as (G1 & G2 & _ & G4).
    { intros cs H. destruct (In_nth _ _ [] H) as (j & Lj & <-). apply word_keys. lia. }
    split; [congruence|]. split.
    - intros j o t Hj Hin. specialize (G2 j o t ltac:(lia) Hin). cbn [Z.add] in G2. exact G2.
    - assert (Rr := root_range). set (r := Z.to_nat (n_ind root)). assert (Er : n_ind root = Z.of_nat r) by (unfold r; lia). rewrite Er. assert (Lr : r < ntok) by lia. specialize (G4 r (n_typ root) ltac:(lia)). cbn [Z.add] in G4. apply G4.
      + apply in_word; [exact Lr|]. rewrite <- Er. apply links_root.
      + intros j' Hj I. apply in_map_iff in I. destruct I as ([o t] & E & I). cbn [fst] in E. subst o. apply in_word in I; [|lia]. destruct (links_inv I) as [(_ & E & _)|[(p & c & H & _ & Ec & _)|(p & c & H & _ & Ep & _)]]; [lia | |]; destruct (arc_facts Td H) as (_ & _ & _ & Rp & Rc & _); lia.
  Qed.
  Definition lk (p : nat * nat) (w : wire * wire) : Prop := nth_error W (fst p) = Some (fst w) /\ nth_error W (snd p) = Some (snd w).
  Lemma cup_ok x : In x (arcs root) -> exists P, cup_morphs ds (lo x, hi x) = Ok (map cup_of P) /\ Forall2 lk P (arc_pairs x).
  Proof.
    intros H. destruct (arc_part H) as (tr & Ln & L0 & Llh & Lh & Hl & Hr). destruct tables as (Ld & T & _). set (a := Z.to_nat (lo x)). set (b := Z.to_nat (hi x)). assert (Ea : lo x = Z.of_nat a) by (unfold a; lia). assert (Eb : hi x = Z.of_nat b) by (unfold b; lia).
    rewrite Ea in Hl. rewrite Eb in Hr. apply in_word in Hl; [|lia]. apply in_word in Hr; [|lia]. destruct (T a (hi x) (rot (-1) tr) ltac:(lia) Hl) as (sa & Sa & Ca). destruct (T b (lo x) tr ltac:(lia) Hr) as (sb & Sb & Cb). rewrite rot_length in *.
    set (n := List.length tr) in *. exists (map (fun k => (sa + (n - 1 - k), sb + k)) (seq 0 n)). split.
    - unfold cup_morphs. rewrite Ea, (@py_index_nth _ ds a []) by lia. cbn [bind]. rewrite Sa. cbn [bind]. rewrite Eb, (@py_index_nth _ ds b []) by lia. cbn [bind]. rewrite <- Ea, Sb. cbn [bind]. rewrite !seq_length, Nat.eqb_refl. rewrite rev_seq_map, (seq_map sb), combine_maps, !map_map. reflexivity.
    - unfold arc_pairs. rewrite <- Ln. fold n. apply Forall2_maps. intros k Hk. apply in_seq in Hk. rewrite Ea, Eb. split; cbn [fst snd]; [rewrite (Ca (n - 1 - k)) by lia; now rewrite Eb | rewrite (Cb k) by lia; now rewrite Ea].
  Qed.
  Lemma cups_ok L : (forall x, In x L -> In x (arcs root)) -> exists Ps, mapM (cup_morphs ds) (map (fun x => (lo x, hi x)) L) = Ok (map (map cup_of) Ps) /\ Forall2 lk (List.concat Ps) (List.concat (map arc_pairs L)).
  Proof.
    induction L as [|x L IH]; intros H; [exists []; cbn; auto|]. destruct (cup_ok (H x (or_introl eq_refl))) as (P & E & F). destruct IH as (Ps & E2 & F2); [intros; apply H; now right|]. exists (P :: Ps). cbn [map mapM]. rewrite E. cbn [bind]. rewrite E2. cbn [bind map List.concat]. split; [reflexivity|]. now apply Forall2_app.
  Qed.

  (** all the wires *)
  Lemma word_wires_app i l m : word_wires i (l ++ m) = word_wires i l ++ word_wires i m.
  Proof. unfold word_wires. now rewrite map_app, concat_app. Qed.
  Lemma wires_concat l : forall i, wires_from (Z.of_nat i) l = List.concat (map (fun j => word_wires (Z.of_nat j) (nth (j - i) l [])) (seq i (List.length l))).
  Proof.
    induction l as [|cs l IH]; intros i; [reflexivity|]. cbn [wires_from List.length seq map List.concat]. rewrite Nat.sub_diag. cbn [nth]. f_equal. replace (Z.of_nat i + 1)%Z with (Z.of_nat (S i)) by lia. rewrite IH. f_equal. apply map_ext_in. intros j Hj. apply in_seq in Hj. replace (j - i) with (S (j - S i)) by lia. reflexivity.
  Qed.
  Definition flatw (l : list (wire * wire)) : list wire := List.concat (map (fun p => [fst p; snd p]) l).
  Lemma arc_wires x : In x (arcs root) -> Permutation (List.concat (map (fun i => word_wires (Z.of_nat i) (arc_links (Z.of_nat i) x)) (seq 0 ntok))) (flatw (arc_pairs x)).
  Proof.
    destruct x as [p c]. intros H. destruct (arc_facts Td H) as (_ & _ & _ & Rp & Rc & Ne). set (t' := if (n_ind c <? n_ind p)%Z then rot 1 (n_typ c) else rot (-1) (n_typ c)).
    assert (E : List.concat (map (fun i => word_wires (Z.of_nat i) (arc_links (Z.of_nat i) (p, c))) (seq 0 ntok)) = List.concat (map (fun i => word_wires (Z.of_nat i) (if (n_ind p =? Z.of_nat i)%Z then [(n_ind c, t')] else []) ++ word_wires (Z.of_nat i) (if (n_ind c =? Z.of_nat i)%Z then [(n_ind p, n_typ c)] else [])) (seq 0 ntok))).
    { f_equal. apply map_ext. intros i. rewrite <- word_wires_app. unfold arc_links, t'. destruct (Z.eqb_spec (n_ind p) (Z.of_nat i)) as [<-|]; reflexivity. }
    rewrite E, concat_split. rewrite (@pick _ (fun i => word_wires (Z.of_nat i) (if (n_ind p =? Z.of_nat i)%Z then _ else _)) (Z.to_nat (n_ind p))); [|lia | intros i Hi; destruct (Z.eqb_spec (n_ind p) (Z.of_nat i)); [lia | reflexivity]].
    rewrite (@pick _ (fun i => word_wires (Z.of_nat i) (if (n_ind c =? Z.of_nat i)%Z then _ else _)) (Z.to_nat (n_ind c))); [|lia | intros i Hi; destruct (Z.eqb_spec (n_ind c) (Z.of_nat i)); [lia | reflexivity]].
    rewrite !Z2Nat.id by lia. rewrite !Z.eqb_refl. unfold word_wires. cbn [map List.concat]. rewrite !app_nil_r. unfold part_wires. cbn [fst snd]. assert (Lt : List.length t' = List.length (n_typ c)) by (unfold t'; destruct (_ <? _)%Z; apply rot_length). rewrite Lt.
    unfold flatw, arc_pairs. cbn [snd]. rewrite map_map. cbn [fst snd]. set (n := List.length (n_typ c)).
    rewrite (concat_split (fun k => [(lo (p, c), hi (p, c), n - 1 - k)]) (fun k => [(hi (p, c), lo (p, c), k)])).
    assert (S1 : forall B (f : nat -> B) l, List.concat (map (fun k => [f k]) l) = map f l) by (intros B f l; induction l as [|y l IHl]; cbn; congruence). rewrite !S1.
    assert (R1 : Permutation (map (fun k => (lo (p, c), hi (p, c), n - 1 - k)) (seq 0 n)) (map (fun k => (lo (p, c), hi (p, c), k)) (seq 0 n))).
    { assert (R := rev_seq_map 0 n). cbn [Nat.add] in R. rewrite <- (map_map (fun k => n - 1 - k) (fun k => (lo (p, c), hi (p, c), k))), <- R. apply Permutation_map. symmetry. apply Permutation_rev. }
    rewrite R1. unfold lo, hi. cbn [fst snd]. destruct (Z.min_spec (n_ind p) (n_ind c)) as [[? X]|[? X]], (Z.max_spec (n_ind p) (n_ind c)) as [[? Y]|[? Y]]; try lia; rewrite X, Y; [reflexivity | apply Permutation_app_comm].
  Qed.
  Lemma all_wires : Permutation (flatw (List.concat (map arc_pairs A)) ++ part_wires (n_ind root) ((-1)%Z, n_typ root)) W.
  Proof.
    unfold wires. change 0%Z with (Z.of_nat 0). rewrite wires_concat. rewrite Lw. rewrite (@concat_perm _ _ (fun j => word_wires (Z.of_nat j) (nth (j - 0) wc [])) (fun j => word_wires (Z.of_nat j) (links root (Z.of_nat j)))).
    2: { intros j Hj. apply in_seq in Hj. rewrite Nat.sub_0_r. unfold word_wires. apply concat_perm_l. apply WL. lia. }
    assert (E : List.concat (map (fun j => word_wires (Z.of_nat j) (links root (Z.of_nat j))) (seq 0 ntok)) = List.concat (map (fun j => word_wires (Z.of_nat j) (if (n_ind root =? Z.of_nat j)%Z then [((-1)%Z, n_typ root)] else []) ++ List.concat (map (fun x => word_wires (Z.of_nat j) (arc_links (Z.of_nat j) x)) (arcs root))) (seq 0 ntok))).
    { f_equal. apply map_ext. intros j. unfold links. rewrite word_wires_app. f_equal. generalize (arcs root). induction l as [|x l IH]; [reflexivity|]. cbn [map List.concat]. rewrite word_wires_app. f_equal. exact IH. }
    rewrite E, concat_split. assert (Rr := root_range). rewrite (@pick _ (fun i => word_wires (Z.of_nat i) (if (n_ind root =? Z.of_nat i)%Z then _ else _)) (Z.to_nat (n_ind root))); [|lia | intros i Hi; destruct (Z.eqb_spec (n_ind root) (Z.of_nat i)); [lia | reflexivity]].
    rewrite Z2Nat.id by lia. rewrite Z.eqb_refl. unfold word_wires at 1. cbn [map List.concat]. rewrite app_nil_r. rewrite Permutation_app_comm. apply Permutation_app_head. rewrite concat_swap. symmetry. rewrite (concat_perm (f := fun x => List.concat (map (fun i => word_wires (Z.of_nat i) (arc_links (Z.of_nat i) x)) (seq 0 ntok))) (g := fun x => flatw (arc_pairs x))) by (intros x Hx; now apply arc_wires).
    rewrite (@concat_perm_l _ _ (fun x => flatw (arc_pairs x)) _ _ (Permutation_sym PA)). clear. unfold flatw. induction A as [|x l IH]; [reflexivity|]. cbn [map List.concat]. rewrite map_app, concat_app. now apply Permutation_app_head.
  Qed.
  (** positions *)
  Variables (P : list pr).
  Hypothesis FP : Forall2 lk P (List.concat (map arc_pairs A)).
  Lemma P_inv l r : In (l, r) P -> exists x k, In x (arcs root) /\ k < List.length (n_typ (snd x)) /\ nth_error W l = Some (lo x, hi x, List.length (n_typ (snd x)) - 1 - k) /\ nth_error W r = Some (hi x, lo x, k).
  Proof.
    intros H. destruct (Forall2_in_l FP H) as (w & Hw & E1 & E2). cbn [fst snd] in *. apply in_concat in Hw. destruct Hw as (L & HL & Hw). apply in_map_iff in HL. destruct HL as (x & <- & Hx). unfold arc_pairs in Hw. apply in_map_iff in Hw. destruct Hw as (k & <- & Hk). apply in_seq in Hk. exists x, k. cbn [fst snd] in *. split; [exact (Permutation_in _ PA Hx)|]. split; [lia|]. auto.
  Qed.
  Lemma free_inv f : In f free -> exists k, nth_error W f = Some (n_ind root, (-1)%Z, k).
  Proof. destruct tables as (_ & _ & s & -> & C). intros H. apply in_seq in H. exists (f - s). rewrite <- (C (f - s)) by lia. f_equal. lia. Qed.
  Lemma P_nested : nested P free.
  Proof.
    assert (Sw := W_sorted). assert (Cmp : forall p q x y, nth_error W p = Some x -> nth_error W q = Some y -> p < q -> wlt x y) by (intros; eapply (sorted_nth Sw); eauto). constructor.
    - intros l r H. destruct (P_inv H) as (x & k & Hx & Hk & El & Er). destruct (arc_part Hx) as (_ & _ & L0 & Llh & _). destruct (Nat.lt_trichotomy l r) as [|[E|L]]; [assumption | subst; rewrite El in Er; injection Er; lia|]. specialize (Cmp _ _ _ _ Er El L). unfold wlt in Cmp. lia.
    - intros l r f H Hf [L1 L2]. destruct (P_inv H) as (x & k & Hx & Hk & El & Er). destruct (arc_part Hx) as (_ & _ & L0 & Llh & _). destruct (free_inv Hf) as (k' & Ef). assert (C1 := Cmp _ _ _ _ El Ef L1). assert (C2 := Cmp _ _ _ _ Ef Er L2). destruct Pl as [Pr _]. apply (Pr x Hx). unfold wlt, before in C1, C2. cbn [fst] in C1, C2.
      destruct (side_cases (lo x) (hi x)) as [?|[?|?]], (side_cases (lo x) (-1)) as [?|[?|?]], (side_cases (n_ind root) (-1)) as [?|[?|?]], (side_cases (n_ind root) (lo x)) as [?|[?|?]]; lia.
    - intros l r l' r' H H' (L1 & L2 & L3). destruct (P_inv H) as (x & k & Hx & Hk & El & Er). destruct (P_inv H') as (y & k' & Hy & Hk' & El' & Er'). destruct (arc_part Hx) as (_ & _ & L0 & Llh & _). destruct (arc_part Hy) as (_ & _ & L0' & Llh' & _).
      assert (C1 := Cmp _ _ _ _ El El' L1). assert (C2 := Cmp _ _ _ _ El' Er L2). assert (C3 := Cmp _ _ _ _ Er Er' L3). destruct Pl as [_ Cr]. specialize (Cr x y Hx Hy). unfold wlt, before in C1, C2, C3. cbn [fst] in C1, C2, C3.
      assert (Lc : (lo y < hi x)%Z). { destruct C2 as [?|(E & [C2|C2])]; [assumption | | lia]. rewrite E in C2. destruct (side_cases (hi x) (hi y)) as [?|[?|?]], (side_cases (hi x) (lo x)) as [?|[?|?]]; lia. }
      destruct C1 as [C1|(E1 & C1)].
      + destruct C3 as [C3|(E3 & C3)]; [lia|]. destruct (side_cases (hi x) (lo x)) as [?|[?|?]], (side_cases (hi x) (lo y)) as [?|[?|?]]; lia.
      + destruct C1 as [C1|(E2 & C1)]; [destruct (side_cases (lo x) (hi x)) as [?|[?|?]], (side_cases (lo x) (hi y)) as [?|[?|?]]; lia|]. assert (x = y) as ->.
        { destruct x as [p c], y as [p' c']. destruct (arc_facts Td Hx) as (Sp & Sc & _). destruct (arc_facts Td Hy) as (Sp' & Sc' & _). unfold lo, hi in E1, E2. cbn [fst snd] in E1, E2. assert (D : (n_ind p = n_ind p' /\ n_ind c = n_ind c') \/ (n_ind p = n_ind c' /\ n_ind c = n_ind p')) by lia.
          destruct D as [[D1 D2]|[D1 D2]]; [destruct (one_head Td Hx Hy D2) as [-> ->]; reflexivity|]. exfalso. assert (p = c') as -> by now apply (uniq Td). assert (c = p') as -> by now apply (uniq Td). destruct Td as [D _]. assert (I1 := sub_nodup D Sp). assert (Hx' := Hx). apply arcs_in in Hx'. apply arcs_in in Hy. destruct Hy as [_ Hy]. destruct Hx' as [_ Hx'].
          rewrite inds_eta in I1. inversion I1 as [|? ? N _]; subst. apply N. apply in_concat. exists (inds p'). split; [now apply in_map|]. rewrite inds_eta. right. apply in_concat. exists (inds c'). split; [now apply in_map | rewrite inds_eta; now left]. }
        lia.
  Qed.
  Lemma P_perm : Permutation (seq 0 (List.length W)) (flat P ++ free).
  Proof.
    apply (@pos_perm _ W (flat P ++ free) (flatw (List.concat (map arc_pairs A)) ++ part_wires (n_ind root) ((-1)%Z, n_typ root))); [|exact all_wires | apply wires_nodup, W_sorted]. apply Forall2_app.
    - clear -FP. unfold flat, flatw. induction FP as [|p w L LW [E1 E2] F IH]; [constructor|]. cbn [map List.concat app]. constructor; [exact E1|]. constructor; [exact E2 | exact (IH F)].
    - destruct tables as (_ & _ & s & -> & C). unfold part_wires. cbn [fst snd]. rewrite seq_map. apply Forall2_maps. intros k Hk. apply in_seq in Hk. apply C. lia.
  Qed.
  Definition wtyp (p : nat) : atom := nth p (cods wc) (EmptyString, 0%Z).
  Lemma rot_nth (t : ty) k da : k < List.length t -> nth (List.length t - 1 - k) (rot (-1) t) da = rot_atom (-1) (nth k t da).
  Proof.
    intros H. unfold rot. change (Z.odd (-1)) with true. cbv iota. rewrite (nth_indep _ da (rot_atom (-1) da)) by (rewrite map_length, rev_length; lia). rewrite map_nth, rev_nth by lia. f_equal. f_equal. lia.
  Qed.
  Lemma P_types l r : In (l, r) P -> wtyp l = rot_atom (-1) (wtyp r).
  Proof.
    intros H. destruct (P_inv H) as (x & k & Hx & Hk & El & Er). destruct (arc_part Hx) as (tr & Ln & L0 & Llh & Lh & Hl & Hr). destruct (wires_ty El) as (j & t & Ej & Lj & It & Kt & Et). destruct (wires_ty Er) as (j' & t' & Ej' & Lj' & It' & Kt' & Et'). cbn [Z.add] in Ej, Ej'. rewrite Ej in Hl. rewrite Ej' in Hr. apply in_word in Hl; [|lia]. apply in_word in Hr; [|lia].
    rewrite Lw in Lj, Lj'. rewrite (word_one Lj It Hl) in *. rewrite (word_one Lj' It' Hr) in *. unfold wtyp. assert (Nn : forall m s q p, nth_error m p = nth_error s q -> nth p m (EmptyString, 0%Z) = nth q s (EmptyString, 0%Z) :> atom) by (intros m s q p Q; rewrite <- !nth_default_eq; unfold nth_default; now rewrite Q).
    etransitivity; [exact (Nn _ _ _ _ Et)|]. etransitivity; [|exact (f_equal (rot_atom (-1)) (eq_sym (Nn _ _ _ _ Et')))]. rewrite <- Ln. apply rot_nth. rewrite Ln. exact Hk.
  Qed.
End Planar.

Lemma mapM_map A B C (f : A -> res B) (g : C -> A) l : mapM f (map g l) = mapM (fun x => f (g x)) l.
Proof. induction l as [|x l IH]; [reflexivity|]. cbn. destruct (f (g x)); cbn; [|reflexivity]. now rewrite IH. Qed.
Definition words_of (tokens : list string) (wc : wcomps) : list (string * ty) := map (fun '(tok, cs) => (tok, List.concat (map snd cs))) (combine tokens wc).
Lemma words_cods tokens : forall wc : wcomps, List.length tokens = List.length wc -> flat_map snd (words_of tokens wc) = cods wc.
Proof. unfold words_of, cods. induction tokens as [|tok tokens IH]; intros [|cs wc] H; try discriminate; [reflexivity|]. cbn [combine map flat_map List.concat snd]. f_equal. apply IH. now injection H. Qed.
Lemma map_nth_seq A (l : list A) d : map (fun i => nth i l d) (seq 0 (List.length l)) = l.
Proof. apply nth_ext with (d := nth 0 l d) (d' := d); [now rewrite map_length, seq_length|]. intros k Hk. rewrite map_length, seq_length in Hk. rewrite (map_nth (fun i => nth i l d) (seq 0 (List.length l)) 0 k), seq_nth by exact Hk. reflexivity. Qed.
Theorem planar_ok root (tokens : list string) : tidy (List.length tokens) root -> planar root -> (forall m, In m (subtrees root) -> n_typ m <> aux_ty) ->
  exists wc d ls ps, List.length wc = List.length tokens /\ (forall i, i < List.length tokens -> word_links root (Z.of_nat i) (nth i wc [])) /\
    tree2diagram root tokens false = Ok d /\ typed d [] (n_typ root) /\ layers d = word_layers [] (words_of tokens wc) ++ ls /\ Forall (fun x => exists a b, l_box x = Cup a b false) ls /\
    joins ls (wires wc) = (ps, part_wires (n_ind root) ((-1)%Z, n_typ root)) /\ Permutation ps (List.concat (map arc_pairs (arcs root))).
Proof.
  intros Td Pl Na. destruct (comps_ok Td) as (wc & A & Ec & PA & Lw & WL). destruct (word_dicts 0 wc []) as [ds free] eqn:ED.
  destruct (@cups_ok root (List.length tokens) wc Td Lw WL ds free ED A) as (Ps & Em & FP); [intros x Hx; exact (Permutation_in _ PA Hx)|]. set (P := List.concat Ps) in *.
  assert (N := @P_nested root (List.length tokens) wc A Td Pl PA Lw WL ds free ED P FP). assert (PP := @P_perm root (List.length tokens) wc A Td PA Lw WL ds free ED P FP). assert (PT := @P_types root (List.length tokens) wc A Td PA Lw WL P FP).
  destruct (sort_gap_ok (map cup_of P)) as [Sg Pg]. destruct (Permutation_map_inv cup_of _ Pg) as (Q & EQ & PQ).
  assert (NQ : nested Q free). { destruct N as [N1 N2 N3]. assert (I : forall x, In x Q -> In x P) by (intros x Hx; exact (Permutation_in _ (Permutation_sym PQ) Hx)). constructor; intros; [eapply N1 | eapply N2 | eapply N3]; eauto. }
  assert (SQ : StronglySorted closer Q).
  { rewrite EQ in Sg. clear -Sg NQ. assert (L : forall p, In p Q -> fst p < snd p) by (intros [l r] H; exact (n_lt NQ H)). clear NQ. induction Q as [|p Q IH]; [constructor|]. cbn [map] in Sg. inversion Sg as [|? ? Sg' F]; subst. constructor; [apply IH; [exact Sg' | intros; apply L; now right]|]. apply Forall_forall. intros q Hq. rewrite Forall_forall in F. assert (G := F _ (in_map cup_of _ _ Hq)). unfold gap_le, gap, cup_of in G. assert (Lp := L p (or_introl eq_refl)). assert (Lq := L q (or_intror Hq)). unfold closer. lia. }
  assert (PfQ : Permutation (seq 0 (List.length (wires wc))) (flat Q ++ free)). { rewrite PP. apply Permutation_app_tail. unfold flat. now apply concat_perm_l. }
  assert (Lc : List.length (wires wc) = List.length (cods wc)) by apply wires_len.
  assert (Wc := @words_cods tokens wc (eq_sym Lw)).
  destruct (@create_pregroup_spec (words_of tokens wc) [] (EmptyString, 0%Z) [] (seq 0 (List.length (flat_map snd (words_of tokens wc))))) as (d0 & E0 & Wf0 & D0 & C0 & L0); [constructor|]. rewrite Wc in C0. rewrite map_nth_seq in C0. rewrite app_nil_r in L0.
  destruct (@draw_ok (wtyp wc) Q free (seq 0 (List.length (wires wc))) d0) as (ls & rem & Ed & Ch & Bx & Cu & J & Pr & Sr); [exact NQ | exact SQ | apply seq_sorted | exact PfQ | | |].
  { intros l r H. apply PT. exact (Permutation_in _ (Permutation_sym PQ) H). }
  { rewrite C0, Lc. unfold wtyp. symmetry. apply map_nth_seq. }
  assert (Er : rem = free). { apply sorted_unique_lt; [exact Sr | | exact Pr]. destruct (@tables root (List.length tokens) wc Td Lw WL ds free ED) as (_ & _ & s & -> & _). apply seq_sorted. }
  set (wd := fun p => nth p (wires wc) (0%Z, 0%Z, 0)). assert (Ew : wires wc = map wd (seq 0 (List.length (wires wc)))) by (symmetry; apply map_nth_seq).
  assert (Cur : map (cur (seq 0 (List.length (wires wc)))) Q = map (fun p : pr => (KCup, Z.of_nat (fst p), Z.of_nat (snd p), Z.of_nat (fst p))) Q).
  { apply map_ext_in. intros [l r] H. assert (G : forall x, x = l \/ x = r -> x < List.length (wires wc)). { intros x Hx. assert (I : In x (flat Q ++ free)) by (apply in_or_app; left; apply (proj2 (flat_in (wtyp wc) Q x)); exists (l, r); auto). apply (Permutation_in _ (Permutation_sym PfQ)) in I. apply in_seq in I. lia. } unfold cur. cbn [fst snd]. now rewrite !rank_seq by (apply G; auto). }
  exists wc, (Diag (dom d0) (map (wtyp wc) rem) (layers d0 ++ ls)), ls, (map (fun p => (wd (fst p), wd (snd p))) Q).
  split; [exact Lw|]. split; [exact WL|]. assert (Fr : map (wtyp wc) rem = n_typ root /\ map wd rem = part_wires (n_ind root) ((-1)%Z, n_typ root)).
  { rewrite Er. destruct (@tables root (List.length tokens) wc Td Lw WL ds free ED) as (_ & _ & s & -> & C). rewrite seq_map, !map_map. assert (Rr := root_range Td). set (r := Z.to_nat (n_ind root)). assert (Er' : n_ind root = Z.of_nat r) by (unfold r; lia). assert (Lr : r < List.length tokens) by lia.
    assert (Hr : In ((-1)%Z, n_typ root) (nth r wc [])) by (apply (@in_word root (List.length tokens) wc WL); [exact Lr|]; rewrite <- Er'; apply links_root). split.
    - transitivity (map (fun k => nth k (n_typ root) (EmptyString, 0%Z)) (seq 0 (List.length (n_typ root)))); [|apply map_nth_seq]. apply map_ext_in. intros k Hk. apply in_seq in Hk. assert (Ck := C k ltac:(lia)). destruct (wires_ty Ck) as (j & t & Ej & Lj & It & Kt & Et). cbn [Z.add] in Ej. assert (j = r) as -> by lia. rewrite (@word_one root (List.length tokens) wc Lw WL _ _ _ _ Lr It Hr) in Et. unfold wtyp. rewrite <- !nth_default_eq. unfold nth_default. now rewrite Et.
    - unfold part_wires. cbn [fst snd]. apply map_ext_in. intros k Hk. apply in_seq in Hk. assert (Ck := C k ltac:(lia)). unfold wd. apply nth_error_nth. exact Ck. }
  destruct Fr as [Fr1 Fr2]. split; [|split; [|split; [|split; [exact Cu|split]]]].
  - unfold tree2diagram. rewrite Ec. cbn [bind]. rewrite ED. rewrite (fix_ok Td Pl) by assumption. cbn [bind]. rewrite Em. cbn [bind]. rewrite <- concat_map. fold P. rewrite EQ. rewrite (map_ext _ free_of) by reflexivity. rewrite (no_swaps _ NQ). cbn [bind]. fold (words_of tokens wc). rewrite E0. cbn [bind]. rewrite place_cups, map_length, <- Cur. exact Ed.
  - split; [|split; [exact D0 | exact Fr1]]. destruct Wf0 as [W1 W2]. split; cbn [dom cod layers].
    + eapply chain_app_i; [exact W1|]. rewrite C0. assert (X : cods wc = map (wtyp wc) (seq 0 (List.length (wires wc)))) by (rewrite Lc; unfold wtyp; symmetry; apply map_nth_seq). rewrite X. exact Ch.
    + apply All_app. split; [exact W2 | exact Bx].
  - cbn [layers]. now rewrite L0.
  - rewrite Ew, joins_map, J. cbn [fst snd]. now rewrite Fr2.
  - assert (PW : Permutation (map (fun p => (wd (fst p), wd (snd p))) P) (List.concat (map arc_pairs (arcs root)))).
    { rewrite <- (@concat_perm_l _ _ arc_pairs _ _ PA). assert (E : map (fun p => (wd (fst p), wd (snd p))) P = List.concat (map arc_pairs A)); [|now rewrite E]. clear -FP. unfold wd. induction FP as [|p w L LW [E1 E2] F IH]; [reflexivity|]. cbn [map]. rewrite (nth_error_nth _ _ _ E1), (nth_error_nth _ _ _ E2). f_equal; [now destruct w | exact IH]. }
    rewrite <- PW. apply Permutation_map. symmetry. exact PQ.
Qed.
