(** Planar trees: no arc passes over the head of its own head; the repair of auxiliary types does nothing (C68, lemmas only). *)
From Coq Require Import Sorted.
From Verif Require Import PyBase PyFacts TyModel TyFacts DiagModel DiagSpec DiagMisc MiscModel MiscFacts TreeModel TreeSpec TreeFacts TreeRew TdModel TdSpec TdComps TdPairs TdWires.
Close Scope string_scope. Set Implicit Arguments. Unset Strict Implicit.

Lemma nodup_inj A B (f : A -> B) l : NoDup (map f l) -> forall x y, In x l -> In y l -> f x = f y -> x = y.
Proof.
  induction l as [|z l IH]; intros N x y Hx Hy E; [destruct Hx|]. cbn in N. inversion N as [|? ? N1 N2]; subst. destruct Hx as [<- | Hx], Hy as [<- | Hy]; auto.
  - exfalso. apply N1. rewrite E. now apply in_map.
  - exfalso. apply N1. rewrite <- E. now apply in_map.
Qed.
Lemma arcs_in n p c : In (p, c) (arcs n) <-> In p (subtrees n) /\ In c (n_children p).
Proof.
  unfold arcs. split.
  - intros H. apply in_concat in H. destruct H as (l & Hl & H). apply in_map_iff in Hl. destruct Hl as (m & <- & Hm). apply in_map_iff in H. destruct H as (c' & [= <- <-] & Hc). auto.
  - intros [Hp Hc]. apply in_concat. exists (map (pair p) (n_children p)). split; [now apply (in_map (fun m => map (pair m) (n_children m))) | now apply in_map].
Qed.
Lemma sub_self n : In n (subtrees n).
Proof. destruct n. now left. Qed.
Lemma sub_trans n : forall m c, In m (subtrees n) -> In c (subtrees m) -> In c (subtrees n).
Proof.
  induction n as [w i t p cs IH] using node_rec. intros m c Hm Hc. rewrite subtrees_node in Hm |- *. destruct Hm as [<- | Hm]; [exact Hc|]. right. apply in_concat in Hm. destruct Hm as (l & Hl & Hm). apply in_map_iff in Hl. destruct Hl as (x & <- & Hx). rewrite Forall_forall in IH. apply in_concat. exists (subtrees x). split; [now apply in_map | eapply IH; eauto].
Qed.
Lemma sub_child n m c : In m (subtrees n) -> In c (n_children m) -> In c (subtrees n).
Proof. intros Hm Hc. apply (sub_trans Hm). destruct m as [w i t p cs]. rewrite subtrees_node. right. apply in_concat. exists (subtrees c). split; [now apply in_map | apply sub_self]. Qed.
Lemma sub_nodup n : NoDup (inds n) -> forall m, In m (subtrees n) -> NoDup (inds m).
Proof.
  induction n as [w i t p cs IH] using node_rec. intros D m Hm. rewrite subtrees_node in Hm. destruct Hm as [<- | Hm]; [exact D|]. apply in_concat in Hm. destruct Hm as (l & Hl & Hm). apply in_map_iff in Hl. destruct Hl as (x & <- & Hx). rewrite Forall_forall in IH. apply (IH x Hx); [|exact Hm]. now apply (nodup_children D).
Qed.
Section Root.
  Variables (root : node) (ntok : nat).
  Hypothesis Td : tidy ntok root.
  Lemma uniq m m' : In m (subtrees root) -> In m' (subtrees root) -> n_ind m = n_ind m' -> m = m'.
  Proof. destruct Td as [D _]. exact (nodup_inj D (x := m) (y := m')). Qed.
  Lemma arc_facts p c : In (p, c) (arcs root) -> In p (subtrees root) /\ In c (subtrees root) /\ In c (n_children p) /\ (0 <= n_ind p < Z.of_nat ntok)%Z /\ (0 <= n_ind c < Z.of_nat ntok)%Z /\ n_ind c <> n_ind p.
  Proof.
    destruct Td as [D R]. intros H. apply arcs_in in H. destruct H as [Hp Hc]. assert (Hc' := sub_child Hp Hc). split; [exact Hp|]. split; [exact Hc'|]. split; [exact Hc|]. split; [apply R; now apply in_map|]. split; [apply R; now apply in_map|]. now apply (nodup_children (sub_nodup D Hp)).
  Qed.
  Lemma one_head p p' c c' : In (p, c) (arcs root) -> In (p', c') (arcs root) -> n_ind c = n_ind c' -> p = p' /\ c = c'.
  Proof.
    intros H H' E. destruct Td as [D _]. apply (Permutation_NoDup (inds_arcs root)) in D. inversion D as [|? ? _ D']; subst. assert (X := nodup_inj D' H H' E). injection X as -> ->. auto.
  Qed.
  Lemma root_no_head p c : In (p, c) (arcs root) -> n_ind c <> n_ind root.
  Proof. intros H E. destruct Td as [D _]. apply (Permutation_NoDup (inds_arcs root)) in D. inversion D as [|? ? D' _]; subst. apply D'. rewrite <- E. apply in_map_iff. exists (p, c). auto. Qed.
  Hypothesis Pl : planar root.
  (** the way down to a node between the two ends of an arc goes through one of the ends *)
  Lemma way_in x : In x (arcs root) -> forall n, In n (subtrees root) -> ~ (lo x < n_ind n < hi x)%Z -> forall j, In j (inds n) -> (lo x < j < hi x)%Z -> exists m, In m (subtrees n) /\ In j (inds m) /\ (n_ind m = lo x \/ n_ind m = hi x).
  Proof.
    intros Hx. induction n as [w i t p cs IH] using node_rec. intros Hn Out j Hj In_. rewrite inds_eta in Hj. destruct Hj as [<- | Hj]; [contradiction|]. apply in_concat in Hj. destruct Hj as (l & Hl & Hj). apply in_map_iff in Hl. destruct Hl as (c & <- & Hc). assert (Hc' := sub_child Hn Hc). set (n := Node w i t p cs) in *.
    destruct (Z_lt_dec (lo x) (n_ind c)) as [L|L]; [destruct (Z_lt_dec (n_ind c) (hi x)) as [G|G]|].
    - exists n. split; [apply sub_self|]. split; [rewrite inds_eta; right; apply in_concat; exists (inds c); split; [now apply in_map | exact Hj]|].
      assert (A : In (n, c) (arcs root)) by now apply arcs_in. destruct (arc_facts A) as (_ & _ & _ & _ & _ & Ne). destruct Pl as [_ Cr]. assert (C1 := Cr _ _ Hx A). assert (C2 := Cr _ _ A Hx). unfold lo, hi in *. cbn [fst snd] in *. lia.
    - rewrite Forall_forall in IH. destruct (IH c Hc Hc' ltac:(lia) j Hj In_) as (m & Hm & R). exists m. split; [|exact R]. apply (sub_trans (sub_child (sub_self n) Hc) Hm).
    - rewrite Forall_forall in IH. destruct (IH c Hc Hc' ltac:(lia) j Hj In_) as (m & Hm & R). exists m. split; [|exact R]. apply (sub_trans (sub_child (sub_self n) Hc) Hm).
  Qed.
  Lemma no_cover s m e : In (s, m) (arcs root) -> In (m, e) (arcs root) -> ~ (lo (m, e) < n_ind s < hi (m, e))%Z.
  Proof.
    intros A1 A2 C. destruct (arc_facts A1) as (Hs & Hm & Cm & _). destruct (arc_facts A2) as (_ & He & Ce & _). destruct (@way_in (m, e) A2 root (sub_self root) ltac:(destruct Pl as [P _]; now apply P) (n_ind s)) as (m' & Hm' & Hj & E); [now apply in_map | exact C|].
    assert (In_m : In (n_ind s) (inds m)).
    { assert (E' : m' = m \/ m' = e) by (unfold lo, hi in E; cbn [fst snd] in E; destruct (Z.min_spec (n_ind m) (n_ind e)) as [[? X]|[? X]], (Z.max_spec (n_ind m) (n_ind e)) as [[? Y]|[? Y]]; rewrite ?X, ?Y in E; destruct E as [E|E]; [left | right | left | left | right | right | right | left]; apply uniq; assumption).
      destruct E' as [-> | ->]; [exact Hj|]. apply in_map_iff in Hj. destruct Hj as (y & Ey & Hy). rewrite <- Ey. apply in_map. exact (sub_trans (sub_child (sub_self m) Ce) Hy). }
    destruct Td as [D _]. assert (Ds := sub_nodup D Hs). rewrite inds_eta in Ds. inversion Ds as [|? ? N _]; subst. apply N. apply in_concat. exists (inds m). split; [now apply in_map | exact In_m].
  Qed.
  Lemma links_inv i o t : In (o, t) (links root i) ->
    (o = -1 /\ i = n_ind root /\ t = n_typ root)%Z \/ (exists p c, In (p, c) (arcs root) /\ n_ind p = i /\ n_ind c = o /\ t = if (o <? i)%Z then rot 1 (n_typ c) else rot (-1) (n_typ c)) \/ (exists p c, In (p, c) (arcs root) /\ n_ind c = i /\ n_ind p = o /\ t = n_typ c).
  Proof.
    unfold links. intros H. apply in_app_or in H. destruct H as [H | H].
    - left. destruct (Z.eqb_spec (n_ind root) i); [|destruct H]. destruct H as [[= <- <-] | []]. auto.
    - right. apply in_concat in H. destruct H as (l & Hl & H). apply in_map_iff in Hl. destruct Hl as ([p c] & <- & A). apply in_app_or in H. destruct H as [H | H].
      + left. destruct (Z.eqb_spec (n_ind p) i) as [E|]; [|destruct H]. destruct H as [[= <- <-] | []]. exists p, c. auto.
      + right. destruct (Z.eqb_spec (n_ind c) i) as [E|]; [|destruct H]. destruct H as [[= <- <-] | []]. exists p, c. auto.
  Qed.
  Lemma links_p p c : In (p, c) (arcs root) -> In (n_ind c, if (n_ind c <? n_ind p)%Z then rot 1 (n_typ c) else rot (-1) (n_typ c)) (links root (n_ind p)).
  Proof. intros A. unfold links. apply in_or_app. right. apply in_concat. exists (arc_links (n_ind p) (p, c)). split; [exact (in_map (arc_links (n_ind p)) _ _ A)|]. unfold arc_links. rewrite Z.eqb_refl. now left. Qed.
  Lemma links_c p c : In (p, c) (arcs root) -> In (n_ind p, n_typ c) (links root (n_ind c)).
  Proof. intros A. unfold links. apply in_or_app. right. apply in_concat. exists (arc_links (n_ind c) (p, c)). split; [exact (in_map (arc_links (n_ind c)) _ _ A)|]. unfold arc_links. rewrite Z.eqb_refl. apply in_or_app. right. now left. Qed.
  Lemma links_root : In ((-1)%Z, n_typ root) (links root (n_ind root)).
  Proof. unfold links. rewrite Z.eqb_refl. now left. Qed.
  Lemma foldM_same S A (f : S -> A -> res S) l s : (forall x, In x l -> f s x = Ok s) -> foldM f l s = Ok s.
  Proof. induction l as [|x l IH]; intros H; [reflexivity|]. cbn. rewrite (H x (or_introl eq_refl)). cbn. apply IH. intros; apply H; now right. Qed.
  Lemma fix_ok wc ds : (forall m, In m (subtrees root) -> n_typ m <> aux_ty) -> List.length wc = ntok -> (forall i, i < ntok -> word_links root (Z.of_nat i) (nth i wc [])) -> fix_auxiliary ds wc = Ok (ds, wc).
  Proof.
    intros Na Lw WL. unfold fix_auxiliary. apply foldM_same. intros i Hi. apply in_seq in Hi. unfold fix_at. destruct (nth_error wc i) as [[|c0 [|c1 [|]]]|] eqn:E0; auto.
    destruct (_ && _ && _) eqn:C; [|reflexivity]. exfalso. apply andb_true_iff in C. destruct C as [C C3]. apply andb_true_iff in C. destruct C as [_ C2]. apply Z.ltb_lt in C2. destruct (nth_error wc (S i)) as [[|[o t] r]|] eqn:E1; try discriminate. apply andb_true_iff in C3. destruct C3 as [Eo Et]. apply Z.eqb_eq in Eo. destruct (ty_eqb_spec t aux_ty) as [->|]; [|discriminate]. subst o.
    assert (L1 : S i < ntok) by (rewrite <- Lw; apply nth_error_Some; congruence). rewrite Lw in Hi. clear Lw. destruct (WL i ltac:(lia)) as [P0 S0]. destruct (WL (S i) L1) as [P1 _]. rewrite (nth_error_nth _ _ [] E0) in P0, S0. rewrite (nth_error_nth _ _ [] E1) in P1.
    assert (J := Permutation_in _ P1 (or_introl eq_refl)). destruct (links_inv J) as [(? & _)|[(p & c & A & Ep & Ec & _)|(p & c & A & Ec & Ep & Et')]]; [lia| |].
    - inversion S0 as [|? ? _ F]; subst. inversion F as [|? ? B _]; subst. assert (B2 : (Z.of_nat i < fst c1)%Z /\ fst c1 <> fst c0). { unfold before in B. destruct (side_cases (Z.of_nat i) (fst c0)) as [?|[?|?]], (side_cases (Z.of_nat i) (fst c1)) as [?|[?|?]]; try lia. assert (Hk : fst c1 <> Z.of_nat i); [|lia]. intros K. assert (J1 := Permutation_in _ P0 (or_intror (or_introl eq_refl))). destruct c1 as [o1 t1]. cbn [fst] in K. subst o1. destruct (links_inv J1) as [(? & _)|[(p' & c' & A' & Ep' & Ec' & _)|(p' & c' & A' & Ec' & Ep' & _)]]; [lia | |]; destruct (arc_facts A') as (_ & _ & _ & _ & _ & Ne); congruence. }
      assert (Js := links_c A). rewrite Ec, Ep in Js. apply (Permutation_in _ (Permutation_sym P0)) in Js.
      assert (Q : exists d t, In (d, t) [c0; c1] /\ (Z.of_nat (S i) < d)%Z). { destruct Js as [-> | [-> | []]]; cbn [fst] in *; [exists (fst c1), (snd c1) | exists (fst c0), (snd c0)]; rewrite <- surjective_pairing; cbn [In]; split; auto; lia. }
      destruct Q as (d & t & Hd & Ld). apply (Permutation_in _ P0) in Hd. destruct (links_inv Hd) as [(? & _)|[(p' & c' & A' & Ep' & Ec' & _)|(p' & c' & A' & Ec' & Ep' & _)]]; [lia| |].
      + assert (p' = c) as ->. { apply uniq; [apply (arc_facts A') | apply (arc_facts A) | congruence]. } apply (no_cover A A'). unfold lo, hi. cbn [fst snd]. lia.
      + destruct (one_head A A') as [-> ->]; [congruence | lia].
    - destruct (arc_facts A) as (_ & Hc & _). now apply (Na _ Hc).
  Qed.
End Root.
