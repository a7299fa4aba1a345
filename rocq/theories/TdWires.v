(** The wires of the row of words and the converter's position tables (C68, lemmas only). *)
From Coq Require Import Sorted.
From Verif Require Import PyBase PyFacts TyModel TyFacts DiagModel DiagSpec DiagMisc MiscModel MiscFacts TreeModel TreeSpec TreeFacts TreeRew TdModel TdSpec TdComps TdPairs.
Close Scope string_scope. Set Implicit Arguments. Unset Strict Implicit.

Definition covers (W : list wire) (s n : nat) (i o : Z) : Prop := forall k, k < n -> nth_error W (s + k) = Some (i, o, k).
Lemma covers_more W W' s n i o : covers W s n i o -> covers (W ++ W') s n i o.
Proof. intros H k Hk. rewrite nth_error_app1; [now apply H|]. apply nth_error_Some. rewrite (H k Hk). discriminate. Qed.
Lemma part_len i p : List.length (part_wires i p) = List.length (snd p).
Proof. unfold part_wires. now rewrite map_length, seq_length. Qed.
Lemma part_nth i p k : k < List.length (snd p) -> nth_error (part_wires i p) k = Some (i, fst p, k).
Proof. intros H. unfold part_wires. rewrite nth_error_map. rewrite (nth_error_nth' _ 0) by (rewrite seq_length; exact H). rewrite seq_nth by exact H. reflexivity. Qed.
Lemma word_len i l : List.length (word_wires i l) = List.length (List.concat (map snd l)).
Proof. unfold word_wires. induction l as [|p l IH]; [reflexivity|]. cbn [map List.concat]. now rewrite !app_length, IH, part_len. Qed.
Lemma word_dict_ok i cs : forall pre d free, NoDup (map fst cs) -> let '(g', d', free') := word_dict (List.length pre) cs d free in
  g' = List.length (pre ++ word_wires i cs) /\ (forall o t, In (o, t) cs -> exists s, d_get Z.eqb o d' = Some (seq s (List.length t)) /\ covers (pre ++ word_wires i cs) s (List.length t) i o) /\
  (forall o, ~ In o (map fst cs) -> d_get Z.eqb o d' = d_get Z.eqb o d) /\ (~ In (-1)%Z (map fst cs) -> free' = free) /\
  (forall t, In ((-1)%Z, t) cs -> exists s, free' = seq s (List.length t) /\ covers (pre ++ word_wires i cs) s (List.length t) i (-1)%Z).
Proof.
  induction cs as [|[o t] cs IH]; intros pre d free N; cbn [word_dict].
  - repeat split; auto; [now rewrite app_nil_r | intros o t [] | intros t []].
  - cbn [map fst] in N. inversion N as [|? ? N1 N2]; subst. specialize (IH (pre ++ part_wires i (o, t)) (d_set Z.eqb o (seq (List.length pre) (List.length t)) d) (if (o =? -1)%Z then seq (List.length pre) (List.length t) else free) N2).
    rewrite app_length, part_len in IH. cbn [snd] in IH. destruct (word_dict _ cs _ _) as [[g' d'] free'] eqn:E. rewrite <- app_assoc in IH. change (part_wires i (o, t) ++ word_wires i cs) with (word_wires i ((o, t) :: cs)) in IH. destruct IH as (A & B & C & D & F).
    assert (Cv : covers (pre ++ word_wires i ((o, t) :: cs)) (List.length pre) (List.length t) i o).
    { intros k Hk. rewrite nth_error_app2 by lia. rewrite Nat.add_comm, Nat.add_sub. unfold word_wires. cbn [map List.concat]. rewrite nth_error_app1 by (rewrite part_len; exact Hk). now rewrite part_nth. }
    split; [exact A|]. split; [|split; [|split]].
    + intros o' t' [[= <- <-] | H]; [|now apply B]. exists (List.length pre). split; [|exact Cv]. rewrite (C o N1), (d_get_set Z.eqb_eq), Z.eqb_refl. reflexivity.
    + intros o' H. cbn [map fst] in H. rewrite C by (intros J; apply H; now right). rewrite (d_get_set Z.eqb_eq). destruct (Z.eqb_spec o o') as [->|]; [exfalso; apply H; now left | reflexivity].
    + intros H. cbn [map fst] in H. rewrite D by (intros J; apply H; now right). destruct (Z.eqb_spec o (-1)) as [->|]; [exfalso; apply H; now left | reflexivity].
    + intros t' [[= -> ->] | H]; [|now apply F]. exists (List.length pre). split; [|exact Cv]. rewrite D by exact N1. reflexivity.
Qed.
Lemma word_dicts_ok wc : forall pre i free, (forall cs, In cs wc -> NoDup (map fst cs)) -> let '(ds, free') := word_dicts (List.length pre) wc free in
  List.length ds = List.length wc /\
  (forall j o t, j < List.length wc -> In (o, t) (nth j wc []) -> exists s, d_get Z.eqb o (nth j ds []) = Some (seq s (List.length t)) /\ covers (pre ++ wires_from i wc) s (List.length t) (i + Z.of_nat j) o) /\
  ((forall cs, In cs wc -> ~ In (-1)%Z (map fst cs)) -> free' = free) /\
  (forall j t, j < List.length wc -> In ((-1)%Z, t) (nth j wc []) -> (forall j', j < j' < List.length wc -> ~ In (-1)%Z (map fst (nth j' wc []))) -> exists s, free' = seq s (List.length t) /\ covers (pre ++ wires_from i wc) s (List.length t) (i + Z.of_nat j) (-1)%Z).
Proof.
  induction wc as [|cs wc IH]; intros pre i free N; cbn [word_dicts].
  - split; [reflexivity|]. split; [intros j o t H; cbn in H; lia|]. split; [reflexivity|]. intros j t H; cbn in H; lia.
  - assert (G := @word_dict_ok i cs pre [] free (N cs (or_introl eq_refl))). destruct (word_dict (List.length pre) cs [] free) as [[g' d'] free'] eqn:E. destruct G as (A & B & _ & D & F). subst g'.
    specialize (IH (pre ++ word_wires i cs) (i + 1)%Z free' (fun c Hc => N c (or_intror Hc))). destruct (word_dicts _ wc free') as [ds free''] eqn:E2. destruct IH as (IA & IB & IC & ID). rewrite <- app_assoc in IB, ID. change (word_wires i cs ++ wires_from (i + 1) wc) with (wires_from i (cs :: wc)) in IB, ID.
    assert (Ew : pre ++ wires_from i (cs :: wc) = (pre ++ word_wires i cs) ++ wires_from (i + 1) wc) by (cbn [wires_from]; now rewrite app_assoc).
    split; [cbn; now rewrite IA|]. split; [|split].
    + intros [|j] o t Hj Hin; cbn [nth List.length] in *.
      * destruct (B o t Hin) as (s & S1 & S2). exists s. split; [exact S1|]. rewrite Ew, Z.add_0_r. now apply covers_more.
      * destruct (IB j o t ltac:(lia) Hin) as (s & S1 & S2). exists s. split; [exact S1|]. replace (i + Z.of_nat (S j))%Z with (i + 1 + Z.of_nat j)%Z by lia. exact S2.
    + intros H. rewrite IC by (intros c Hc; apply H; now right). apply D. apply H. now left.
    + intros [|j] t Hj Hin Ho; cbn [nth List.length] in *.
      * destruct (F t Hin) as (s & S1 & S2). exists s. split; [|rewrite Ew, Z.add_0_r; now apply covers_more]. rewrite IC; [exact S1|]. intros c Hc. destruct (In_nth wc c [] Hc) as (j' & Lj & <-). apply (Ho (S j')). lia.
      * destruct (ID j t ltac:(lia) Hin) as (s & S1 & S2); [intros j' Hj'; apply (Ho (S j')); lia|]. exists s. split; [exact S1|]. replace (i + Z.of_nat (S j))%Z with (i + 1 + Z.of_nat j)%Z by lia. exact S2.
Qed.

(** ** The order of the wires *)
Definition wlt (x y : wire) : Prop :=
  let '(i, o, k) := x in let '(i', o', k') := y in (i < i')%Z \/ (i = i' /\ (before i (o, []) (o', []) \/ (o = o' /\ k < k'))).
Lemma sorted_app A (R : A -> A -> Prop) l m : StronglySorted R l -> StronglySorted R m -> (forall x y, In x l -> In y m -> R x y) -> StronglySorted R (l ++ m).
Proof. induction 1 as [|x l Sl IH F]; intros Sm H; [exact Sm|]. cbn. constructor; [apply IH; auto; intros; apply H; auto; now right|]. apply Forall_app. split; [exact F|]. apply Forall_forall. intros y Hy. apply H; [now left | exact Hy]. Qed.
Lemma word_wires_in i l w : In w (word_wires i l) -> exists o t k, w = (i, o, k) /\ In (o, t) l /\ k < List.length t.
Proof. unfold word_wires. intros H. apply in_concat in H. destruct H as (p & Hp & H). apply in_map_iff in Hp. destruct Hp as ([o t] & <- & Hp). unfold part_wires in H. apply in_map_iff in H. destruct H as (k & <- & Hk). apply in_seq in Hk. exists o, t, k. cbn [fst snd] in *. repeat split; [exact Hp | lia]. Qed.
Lemma wires_in wc : forall i w, In w (wires_from i wc) -> exists j, j < List.length wc /\ In w (word_wires (i + Z.of_nat j) (nth j wc [])).
Proof.
  induction wc as [|cs wc IH]; intros i w H; [destruct H|]. cbn [wires_from] in H. apply in_app_or in H. destruct H as [H | H].
  - exists 0. cbn. rewrite Z.add_0_r. split; [lia | exact H].
  - destruct (IH _ _ H) as (j & L & J). exists (S j). cbn [List.length nth]. split; [lia|]. replace (i + Z.of_nat (S j))%Z with (i + 1 + Z.of_nat j)%Z by lia. exact J.
Qed.
Lemma part_sorted i p : StronglySorted wlt (part_wires i p).
Proof.
  unfold part_wires. generalize 0. intros a. generalize (List.length (snd p)) as n. intros n. revert a. induction n as [|n IH]; intros a; cbn [seq map]; constructor; [apply IH|]. apply Forall_forall. intros w Hw. apply in_map_iff in Hw. destruct Hw as (k & <- & Hk). apply in_seq in Hk. right. split; [reflexivity|]. right. split; [reflexivity | lia].
Qed.
Lemma word_sorted i l : StronglySorted (before i) l -> StronglySorted wlt (word_wires i l).
Proof.
  unfold word_wires. induction 1 as [|p l Sl IH F]; [constructor|]. cbn [map List.concat]. apply sorted_app; [apply part_sorted | exact IH|].
  intros x y Hx Hy. unfold part_wires in Hx. apply in_map_iff in Hx. destruct Hx as (k & <- & _). apply word_wires_in in Hy. destruct Hy as (o & t & k' & -> & Hin & _). rewrite Forall_forall in F. specialize (F _ Hin). right. split; [reflexivity|]. left. exact F.
Qed.
Lemma wires_sorted wc : forall i, (forall j, j < List.length wc -> StronglySorted (before (i + Z.of_nat j)) (nth j wc [])) -> StronglySorted wlt (wires_from i wc).
Proof.
  induction wc as [|cs wc IH]; intros i H; [constructor|]. cbn [wires_from]. apply sorted_app.
  - apply word_sorted. specialize (H 0). cbn in H. rewrite Z.add_0_r in H. apply H. lia.
  - apply IH. intros j Hj. specialize (H (S j)). cbn [nth List.length] in H. replace (i + 1 + Z.of_nat j)%Z with (i + Z.of_nat (S j))%Z by lia. apply H. lia.
  - intros x y Hx Hy. apply word_wires_in in Hx. destruct Hx as (o & t & k & -> & _). apply wires_in in Hy. destruct Hy as (j & _ & Hy). apply word_wires_in in Hy. destruct Hy as (o' & t' & k' & -> & _). left. lia.
Qed.
Lemma wlt_irr x : ~ wlt x x.
Proof. destruct x as [[i o] k]. unfold wlt, before. cbn [fst]. lia. Qed.
Lemma wlt_asym x y : wlt x y -> wlt y x -> False.
Proof. destruct x as [[i o] k], y as [[i' o'] k']. unfold wlt, before. cbn [fst]. intros [?|(-> & H1)] [?|(E & H2)]; try lia. destruct H1 as [H1|(-> & H1)], H2 as [H2|(E2 & H2)]; try (rewrite E2 in *); lia. Qed.
Lemma sorted_nth A (R : A -> A -> Prop) l : StronglySorted R l -> forall p q x y, nth_error l p = Some x -> nth_error l q = Some y -> p < q -> R x y.
Proof.
  induction 1 as [|z l Sl IH F]; intros [|p] [|q] x y Hx Hy L; cbn in *; try lia; try discriminate.
  - injection Hx as <-. rewrite Forall_forall in F. apply F. eapply nth_error_In; eauto.
  - eapply IH; eauto. lia.
Qed.
Lemma wires_nodup W : StronglySorted wlt W -> NoDup W.
Proof. induction 1 as [|x l Sl IH F]; constructor; auto. intros I. rewrite Forall_forall in F. exact (wlt_irr (F x I)). Qed.

(** ** Types of wires *)
Definition cods (wc : wcomps) : ty := List.concat (map (fun cs => List.concat (map snd cs)) wc).
Lemma wires_len wc : forall i, List.length (wires_from i wc) = List.length (cods wc).
Proof. unfold cods. induction wc as [|cs wc IH]; intros i; [reflexivity|]. cbn [wires_from map List.concat]. now rewrite !app_length, IH, word_len. Qed.
Lemma word_ty i l : forall p w o k, nth_error (word_wires i l) p = Some (w, o, k) -> w = i /\ exists t, In (o, t) l /\ k < List.length t /\ nth_error (List.concat (map snd l)) p = nth_error t k.
Proof.
  unfold word_wires. induction l as [|[o' t'] l IH]; intros p w o k H; [now rewrite nth_error_nil in H || destruct p; discriminate|]. cbn [map List.concat snd] in *. destruct (Nat.lt_ge_cases p (List.length t')) as [L|L].
  - rewrite nth_error_app1 in H by (rewrite part_len; exact L). rewrite part_nth in H by exact L. injection H as <- <- <-. split; [reflexivity|]. exists t'. split; [now left|]. split; [exact L|]. now rewrite nth_error_app1.
  - rewrite nth_error_app2 in H by (rewrite part_len; exact L). rewrite part_len in H. cbn [snd] in H. destruct (IH _ _ _ _ H) as (-> & t & I & K & E). split; [reflexivity|]. exists t. split; [now right|]. split; [exact K|]. now rewrite nth_error_app2.
Qed.
Lemma wires_ty wc : forall i p w o k, nth_error (wires_from i wc) p = Some (w, o, k) -> exists j t, w = (i + Z.of_nat j)%Z /\ j < List.length wc /\ In (o, t) (nth j wc []) /\ k < List.length t /\ nth_error (cods wc) p = nth_error t k.
Proof.
  unfold cods. induction wc as [|cs wc IH]; intros i p w o k H; [destruct p; discriminate|]. cbn [wires_from map List.concat] in *. destruct (Nat.lt_ge_cases p (List.length (word_wires i cs))) as [L|L].
  - rewrite nth_error_app1 in H by exact L. destruct (word_ty H) as (-> & t & I & K & E). exists 0, t. cbn [nth List.length]. split; [lia|]. split; [lia|]. split; [exact I|]. split; [exact K|]. rewrite nth_error_app1; [exact E|]. now rewrite <- (word_len i).
  - rewrite nth_error_app2 in H by exact L. destruct (IH _ _ _ _ _ H) as (j & t & -> & Lj & I & K & E). exists (S j), t. cbn [nth List.length]. split; [lia|]. split; [lia|]. split; [exact I|]. split; [exact K|]. rewrite nth_error_app2 by now rewrite <- (word_len i). rewrite <- (word_len i). exact E.
Qed.
