(** Proofs about contraction in PoModel.v. *)
From Coq Require Import Setoid Ring Ring_theory.
From Verif Require Import PyBase PyFacts PoModel PoSpec.
Set Implicit Arguments. Unset Strict Implicit.

Lemma occ_in e l : 0 < occ e l <-> In e l. Proof. unfold occ. rewrite (count_occ_In Nat.eq_dec). lia. Qed.
Lemma occ_zero e l : occ e l = 0 <-> ~ In e l. Proof. rewrite <- occ_in. lia. Qed.
Lemma occ_app e a b : occ e (a ++ b) = occ e a + occ e b. Proof. apply count_occ_app. Qed.
Lemma occ_nodup l : NoDup l <-> forall e, occ e l <= 1. Proof. apply (NoDup_count_occ Nat.eq_dec). Qed.
Lemma occ_filter e P l : occ e (filter P l) = if P e then occ e l else 0.
Proof.
  unfold occ. induction l as [|x l IH]; cbn; [destruct (P e); reflexivity|]. destruct (P x) eqn:Ex; cbn; destruct (Nat.eq_dec x e) as [->|N]; rewrite ?IH, ?Ex; auto.
Qed.
Lemma occ_perm e a b : Permutation a b -> occ e a = occ e b. Proof. intro H. now apply (Permutation_count_occ Nat.eq_dec). Qed.
(** removing positions *)
Fixpoint rem {A} (i : nat) (P : nat -> bool) (l : list A) : list A := match l with [] => [] | x :: l' => if P i then rem (S i) P l' else x :: rem (S i) P l' end.
Lemma remove_at_rem A js (l : list A) : forall i, remove_at i js l = rem i (fun i => existsb (Nat.eqb i) js) l.
Proof. induction l as [|x l IH]; intro i; cbn; auto. rewrite IH. reflexivity. Qed.
Lemma rem_app A P (l m : list A) : forall i, rem i P (l ++ m) = rem i P l ++ rem (i + List.length l) P m.
Proof. induction l as [|x l IH]; intro i; cbn; [now rewrite Nat.add_0_r|]. rewrite IH. replace (i + S (List.length l)) with (S i + List.length l) by lia. destruct (P i); reflexivity. Qed.
Lemma rem_none A P (l : list A) : forall k, (forall i, k <= i -> P i = false) -> rem k P l = l.
Proof. induction l as [|x l IH]; intros k H; cbn; auto. rewrite H by lia. rewrite IH; auto. intros; apply H; lia. Qed.
Lemma rem_one A P (l : list A) : forall k b y, nth_error l b = Some y -> P (k + b) = true -> (forall i, k <= i -> i <> k + b -> P i = false) -> Permutation l (y :: rem k P l).
Proof.
  induction l as [|x l IH]; intros k b y H H1 H2; [destruct b; discriminate|]. cbn. destruct b as [|b]; cbn in H.
  - injection H as ->. rewrite Nat.add_0_r in *. rewrite H1. rewrite rem_none; auto. intros; apply H2; lia.
  - rewrite H2 by lia. rewrite perm_swap. apply perm_skip. apply (IH (S k) b); auto; [now rewrite <- plus_n_Sm in H1|]. intros; apply H2; lia.
Qed.
Lemma rem_two A P (l : list A) : forall k a b x y, nth_error l a = Some x -> nth_error l b = Some y -> a < b -> P (k + a) = true -> P (k + b) = true -> (forall i, k <= i -> i <> k + a -> i <> k + b -> P i = false) ->
  Permutation l (x :: y :: rem k P l).
Proof.
  induction l as [|z l IH]; intros k a b x y Ha Hb L H1 H2 H3; [destruct a; discriminate|]. destruct b as [|b]; [lia|]. cbn. destruct a as [|a]; cbn in Ha, Hb.
  - injection Ha as ->. rewrite Nat.add_0_r in H1. rewrite H1. apply perm_skip. apply (rem_one (b := b)); auto; [now rewrite <- plus_n_Sm in H2|]. intros i Hi Hn. apply H3; lia.
  - rewrite H3 by lia. assert (Permutation l (x :: y :: rem (S k) P l)). { apply (IH (S k) a b); auto; try lia; try (rewrite <- plus_n_Sm in *; assumption). intros; apply H3; lia. }
    rewrite H at 1. rewrite (perm_swap x z), (perm_swap y z). reflexivity.
Qed.
Lemma remove_pair A (l : list A) a b x y c : nth_error l a = Some x -> nth_error l b = Some y -> a <> b ->
  exists rest, Permutation l (x :: y :: rest) /\ remove_at 0 [a; b] (l ++ [c]) = rest ++ [c].
Proof.
  intros Ha Hb N. exists (rem 0 (fun i => existsb (Nat.eqb i) [a; b]) l). assert (La : a < List.length l) by (apply nth_error_Some; congruence). assert (Lb : b < List.length l) by (apply nth_error_Some; congruence). split.
  - assert (F : forall i j, j <> i -> Nat.eqb i j = false) by (intros; apply Nat.eqb_neq; lia). destruct (Nat.lt_ge_cases a b) as [L|L].
    + apply (@rem_two A _ l 0 a b); auto; cbn; rewrite ?Nat.eqb_refl, ?orb_true_r; auto. intros i _ H1 H2. rewrite !F; auto.
    + rewrite perm_swap. apply (@rem_two A _ l 0 b a); auto; try lia; cbn; rewrite ?Nat.eqb_refl, ?orb_true_r; auto. intros i _ H1 H2. rewrite !F; auto.
  - rewrite remove_at_rem, rem_app. f_equal. cbn. replace (List.length l =? a) with false by (symmetry; apply Nat.eqb_neq; lia). replace (List.length l =? b) with false by (symmetry; apply Nat.eqb_neq; lia). reflexivity.
Qed.

Section Net.
  Variables (K : Type) (kzero kone : K) (kadd kmul : K -> K -> K) (dim : nat -> nat).
  Hypothesis SR : semi_ring_theory kzero kone kadd kmul (@eq K).
  Add Ring Kring : SR.
  Declare Scope k_scope.
  Notation "x + y" := (kadd x y) : k_scope. Notation "x * y" := (kmul x y) : k_scope. Delimit Scope k_scope with K.
  Notation ssum := (sum_edges kzero kadd dim).
  Notation value := (net_value kzero kone kadd kmul dim).
  Definition dep (S : list nat) (f : env -> K) : Prop := forall r r', (forall e, In e S -> r e = r' e) -> f r = f r'.
  Definition ext (f : env -> K) : Prop := forall r r', (forall e, r e = r' e) -> f r = f r'.
  Lemma dep_ext S f : dep S f -> ext f. Proof. intros H r r' E. apply H. auto. Qed.
  Lemma sum_to_ext n f g : (forall v, v < n -> f v = g v) -> sum_to kzero kadd n f = sum_to kzero kadd n g.
  Proof. induction n as [|n IH]; cbn; auto. intro H. rewrite IH, H by auto. reflexivity. Qed.
  Lemma sum_to_zero n : sum_to kzero kadd n (fun _ => kzero) = kzero.
  Proof. induction n as [|n IH]; cbn; auto. rewrite IH. ring. Qed.
  Lemma sum_to_add n f g : sum_to kzero kadd n (fun v => (f v + g v)%K) = (sum_to kzero kadd n f + sum_to kzero kadd n g)%K.
  Proof. induction n as [|n IH]; cbn; [ring|]. rewrite IH. ring. Qed.
  Lemma sum_to_swap n m (f : nat -> nat -> K) : sum_to kzero kadd n (fun v => sum_to kzero kadd m (f v)) = sum_to kzero kadd m (fun w => sum_to kzero kadd n (fun v => f v w)).
  Proof. induction n as [|n IH]; cbn; [now rewrite sum_to_zero|]. rewrite IH, <- sum_to_add. reflexivity. Qed.
  Lemma sum_to_mul n f c : sum_to kzero kadd n (fun v => (f v * c)%K) = (sum_to kzero kadd n f * c)%K.
  Proof. induction n as [|n IH]; cbn; [ring|]. rewrite IH. ring. Qed.
  Lemma upd_ext r r' e v : (forall x, r x = r' x) -> forall x, upd r e v x = upd r' e v x.
  Proof. intros H x. unfold upd. destruct (x =? e); auto. Qed.
  Lemma ssum_ext es f g : (forall r, f r = g r) -> forall r, ssum es f r = ssum es g r.
  Proof. induction es as [|e es IH]; intros H r; cbn; auto. apply sum_to_ext. auto. Qed.
  Lemma ssum_dep es f S : dep S f -> dep (filter (fun e => occ e es =? 0) S) (ssum es f).
  Proof.
    intro H. induction es as [|e es IH]; intros r r' E; cbn.
    - apply H. intros x Hx. apply E. apply filter_In. auto.
    - apply sum_to_ext. intros v _. apply IH. intros x Hx. apply filter_In in Hx. destruct Hx as (Hx & Ho). unfold upd. destruct (Nat.eqb_spec x e) as [|N]; auto. apply E. apply filter_In. split; auto. cbn. destruct (Nat.eq_dec e x); [congruence|exact Ho].
  Qed.
  Lemma ssum_isext es f : ext f -> ext (ssum es f).
  Proof. intro H. induction es as [|e es IH]; intros r r' E; cbn; auto. apply sum_to_ext. intros v _. apply IH. now apply upd_ext. Qed.
  Lemma ssum_app a b f r : ssum (a ++ b) f r = ssum a (ssum b f) r.
  Proof. revert r. induction a as [|e a IH]; intro r; cbn; auto. apply sum_to_ext. auto. Qed.
  Lemma ssum_perm a b f : Permutation a b -> NoDup a -> ext f -> forall r, ssum a f r = ssum b f r.
  Proof.
    intros P ND H. induction P as [|e a b P IH|x y l|a b c P1 IH1 P2 IH2]; intro r; cbn; auto.
    - apply sum_to_ext. intros v _. apply IH. now inversion ND.
    - inversion ND as [|? ? N1 N2]; subst. rewrite sum_to_swap. apply sum_to_ext. intros v _. apply sum_to_ext. intros w _. apply ssum_isext; auto. intro z. unfold upd. destruct (Nat.eqb_spec z x), (Nat.eqb_spec z y); auto. subst. exfalso. apply N1. now left.
    - rewrite IH1, IH2; auto. eapply Permutation_NoDup; eauto.
  Qed.
  Lemma ssum_mul es f g S : dep S g -> (forall e, In e es -> ~ In e S) -> forall r, ssum es (fun r => (f r * g r)%K) r = (ssum es f r * g r)%K.
  Proof.
    intros D. induction es as [|e es IH]; intros N r; cbn; auto. rewrite <- sum_to_mul. apply sum_to_ext. intros v _. rewrite IH by (intros; apply N; now right). f_equal. apply D. intros x Hx. unfold upd. destruct (Nat.eqb_spec x e); auto. subst. exfalso. apply (N e); auto. now left.
  Qed.
  Definition prod (ns : list (node K)) (r : env) : K := fold_right (fun n acc => (n_val n r * acc)%K) kone ns.
  Lemma prod_dep ns : Forall (@node_ok K) ns -> dep (all_edges ns) (prod ns).
  Proof.
    induction 1 as [|n ns (ND & H) F IH]; intros r r' E; cbn; auto. f_equal.
    - apply H. intros e He. apply E. unfold all_edges. cbn [map List.concat]. apply in_or_app. auto.
    - apply IH. intros e He. apply E. unfold all_edges. cbn [map List.concat]. apply in_or_app. auto.
  Qed.
  Lemma prod_perm a b : Permutation a b -> forall r, prod a r = prod b r.
  Proof.
    induction 1 as [|n a b P IH|x y l|a b c P1 IH1 P2 IH2]; intro r; cbn [prod fold_right]; auto.
    - f_equal. apply IH.
    - ring.
    - now rewrite IH1.
  Qed.
  Lemma inner_in (ns : list (node K)) e : In e (inner ns) <-> occ e (all_edges ns) = 2.
  Proof. unfold inner. rewrite nodup_In, filter_In, Nat.eqb_eq. split; [tauto|]. intro H. split; auto. apply occ_in. lia. Qed.
  Lemma inner_nodup (ns : list (node K)) : NoDup (inner ns). Proof. apply NoDup_nodup. Qed.
  Lemma edges_perm (a b : list (node K)) : Permutation a b -> Permutation (all_edges a) (all_edges b).
  Proof.
    unfold all_edges. induction 1; cbn; auto; [now apply Permutation_app_head| |etransitivity; eauto]. rewrite !app_assoc. apply Permutation_app_tail, Permutation_app_comm.
  Qed.
  Lemma value_perm a b : Permutation a b -> Forall (@node_ok K) a -> forall r, value a r = value b r.
  Proof.
    intros P F r. unfold net_value. transitivity (ssum (inner b) (prod a) r).
    - apply ssum_perm; [|apply inner_nodup|exact (dep_ext (prod_dep F))]. apply NoDup_Permutation; try apply inner_nodup. intro e. rewrite !inner_in. now rewrite (occ_perm e (edges_perm P)).
    - apply ssum_ext. intro. now apply prod_perm.
  Qed.
  Lemma net_perm (a b : list (node K)) : Permutation a b -> net_ok a -> net_ok b.
  Proof. intros P (F & H). split; [eapply Permutation_Forall; eauto|]. intro e. rewrite <- (occ_perm e (edges_perm P)). auto. Qed.
  (** contracting two nodes *)
  Lemma occ_one (n : node K) e : node_ok n -> occ e (n_edges n) <= 1. Proof. intros (ND & _). now apply occ_nodup. Qed.
  Lemma contract_occ id (a b : node K) e : node_ok a -> node_ok b -> occ e (n_edges (contract_between kzero kadd kmul dim id a b)) = if (occ e (n_edges a) + occ e (n_edges b) =? 2) then 0 else occ e (n_edges a) + occ e (n_edges b).
  Proof.
    intros Ha Hb. apply (@occ_one a e) in Ha. apply (@occ_one b e) in Hb. unfold contract_between. cbn [n_edges]. rewrite occ_app, !occ_filter. destruct (occ e (n_edges a)) as [|[|?]], (occ e (n_edges b)) as [|[|?]]; cbn; lia.
  Qed.
  Lemma shared_in (a b : node K) e : In e (shared a b) <-> In e (n_edges a) /\ In e (n_edges b).
  Proof. unfold shared. rewrite filter_In, Nat.ltb_lt, occ_in. tauto. Qed.
  Lemma contract_ok id (a b : node K) : node_ok a -> node_ok b -> node_ok (contract_between kzero kadd kmul dim id a b).
  Proof.
    intros Ha Hb. split.
    - apply occ_nodup. intro e. rewrite contract_occ by auto. apply (@occ_one a e) in Ha. apply (@occ_one b e) in Hb. destruct (Nat.eqb_spec (occ e (n_edges a) + occ e (n_edges b)) 2); lia.
    - intros r r' E. cbn. apply (@ssum_dep (shared a b) _ (n_edges a ++ n_edges b)).
      + intros x x' Ex. destruct Ha as (_ & Ha), Hb as (_ & Hb). rewrite (Ha x x'), (Hb x x'); auto; intros; apply Ex, in_or_app; auto.
      + intros e He. apply filter_In in He. destruct He as (He & Hs). apply Nat.eqb_eq, occ_zero in Hs. rewrite shared_in in Hs. apply E. cbn. apply in_or_app. rewrite !filter_In, !Nat.eqb_eq, !occ_zero. apply in_app_or in He. tauto.
  Qed.
  Lemma contract_value id (a b : node K) rest : net_ok (a :: b :: rest) -> let c := contract_between kzero kadd kmul dim id a b in
    net_ok (c :: rest) /\ (forall r, value (c :: rest) r = value (a :: b :: rest) r) /\ forall e, occ e (all_edges (c :: rest)) = 1 <-> occ e (all_edges (a :: b :: rest)) = 1.
  Proof.
    intros (F & H). cbv zeta. set (c := contract_between kzero kadd kmul dim id a b). inversion F as [|? ? Fa F']; subst. inversion F' as [|? ? Fb Fr]; subst.
    assert (OC : forall e, occ e (all_edges (c :: rest)) = occ e (n_edges c) + occ e (all_edges rest)) by (intro; unfold all_edges; cbn [map List.concat]; now rewrite occ_app).
    assert (OA : forall e, occ e (all_edges (a :: b :: rest)) = occ e (n_edges a) + occ e (n_edges b) + occ e (all_edges rest)) by (intro; unfold all_edges; cbn [map List.concat]; rewrite !occ_app; lia).
    assert (CO := fun e => @contract_occ id a b e Fa Fb). fold c in CO. assert (OK : node_ok c) by now apply contract_ok.
    assert (CS : forall e, occ e (n_edges a) <= 1 /\ occ e (n_edges b) <= 1) by (intro; split; now apply occ_one).
    split; [|split].
    - split; [constructor; auto|]. intro e. specialize (H e). rewrite OA in H. rewrite OC, CO. destruct (_ =? 2); lia.
    - intro r. unfold net_value at 2. rewrite (@ssum_perm _ (inner (c :: rest) ++ shared a b)); [| |apply inner_nodup|exact (dep_ext (prod_dep F))].
      + rewrite ssum_app. apply ssum_ext. intro r'. fold (prod (a :: b :: rest)). rewrite (@ssum_ext _ (prod (a :: b :: rest)) (fun r => (n_val a r * n_val b r * prod rest r)%K)) by (intro; unfold prod; cbn [fold_right]; ring).
        rewrite (@ssum_mul _ _ _ (all_edges rest)); [reflexivity|exact (prod_dep Fr)|]. intros e He. apply shared_in in He. destruct He as (H1 & H2). specialize (H e). rewrite OA in H. apply occ_in in H1, H2. apply occ_zero. lia.
      + apply NoDup_Permutation; [apply inner_nodup| |].
        * apply occ_nodup. intro e. rewrite occ_app. assert (E1 := proj1 (occ_nodup _) (inner_nodup (c :: rest)) e). assert (E2 : occ e (shared a b) <= 1) by (unfold shared; rewrite occ_filter; destruct (CS e); destruct (_ <? _); lia).
          destruct (Nat.eq_dec (occ e (shared a b)) 0) as [|N]; [lia|]. assert (I : In e (shared a b)) by (apply occ_in; lia). apply shared_in in I. destruct I as (I1 & I2). apply occ_in in I1, I2. destruct (CS e).
          assert (occ e (inner (c :: rest)) = 0); [|lia]. apply occ_zero. rewrite inner_in, OC, CO. specialize (H e). rewrite OA in H. destruct (Nat.eqb_spec (occ e (n_edges a) + occ e (n_edges b)) 2); lia.
        * intro e. rewrite in_app_iff, !inner_in, shared_in, <- !occ_in, OA, OC, CO. specialize (H e). rewrite OA in H. destruct (CS e). destruct (Nat.eqb_spec (occ e (n_edges a) + occ e (n_edges b)) 2); lia.
    - intro e. rewrite OA, OC, CO. specialize (H e). rewrite OA in H. destruct (CS e). destruct (Nat.eqb_spec (occ e (n_edges a) + occ e (n_edges b)) 2); lia.
  Qed.
  (** along a path *)
  Notation step := (contract_step kzero kadd kmul dim).
  Lemma path_value p : forall ns fresh, net_ok ns -> good_path (List.length ns) p -> exists n fresh', foldM step p (ns, fresh) = Ok ([n], fresh') /\ node_ok n /\
    (forall r, n_val n r = value ns r) /\ forall e, In e (n_edges n) <-> occ e (all_edges ns) = 1.
  Proof.
    induction p as [|s p IH]; intros ns fresh N G.
    - cbn in G. destruct ns as [|n [|? ?]]; try discriminate. exists n, fresh. split; [reflexivity|]. destruct N as (F & H). inversion F as [|? ? Fn _]; subst. split; auto. split.
      + intro r. unfold net_value. replace (inner [n]) with (@nil nat). { cbn. ring. } symmetry. destruct (inner [n]) as [|e l] eqn:E; auto. exfalso. assert (In e (inner [n])) as I by (rewrite E; now left). apply inner_in in I. unfold all_edges in I. cbn [map List.concat] in I. rewrite app_nil_r in I. pose proof (@occ_one n e Fn). lia.
      + intro e. unfold all_edges. cbn [map List.concat]. rewrite app_nil_r, <- occ_in. pose proof (@occ_one n e Fn). lia.
    - cbn in G. destruct s as [|a [|b [|? ?]]]; try contradiction. destruct G as (La & Lb & NE & G). destruct (nth_error ns a) as [x|] eqn:Ea; [|apply nth_error_None in Ea; lia]. destruct (nth_error ns b) as [y|] eqn:Eb; [|apply nth_error_None in Eb; lia].
      set (c := contract_between kzero kadd kmul dim fresh x y). destruct (@remove_pair _ ns a b x y c Ea Eb NE) as (rest & P & R).
      cbn [foldM]. unfold contract_step at 1. rewrite Ea, Eb. fold c. rewrite R. cbn [bind].
      destruct (@contract_value fresh x y rest (net_perm P N)) as (V1 & V2 & V3). fold c in V1, V2, V3. assert (PC : Permutation (c :: rest) (rest ++ [c])) by apply Permutation_cons_append.
      destruct (IH (rest ++ [c]) (S fresh)) as (n & fr & E1 & E2 & E3 & E4).
      + exact (net_perm PC V1).
      + apply Permutation_length in P. rewrite app_length. cbn in P |- *. replace (List.length rest + 1) with (List.length ns - 1) by lia. exact G.
      + exists n, fr. split; [exact E1|]. split; auto. split.
        * intro r. rewrite E3, <- (value_perm PC); [|apply V1]. rewrite V2. symmetry. apply value_perm; auto. apply N.
        * intro e. rewrite E4, <- (occ_perm e (edges_perm PC)), V3, (occ_perm e (edges_perm P)). reflexivity.
  Qed.
  Lemma no_traces ns : forall fresh, Forall (@node_ok K) ns -> contract_traces kzero kadd dim fresh ns = ns.
  Proof.
    induction ns as [|n ns IH]; intros fresh F; cbn; auto. inversion F as [|? ? Fn F']; subst. rewrite IH by auto. replace (existsb (is_trace n) (n_edges n)) with false; auto. symmetry. apply not_true_iff_false. intro H. apply existsb_exists in H. destruct H as (e & _ & He). unfold is_trace in He. apply Nat.eqb_eq in He. pose proof (@occ_one n e Fn). lia.
  Qed.
  Lemma dedup_all (ns : list (node K)) : forall seen, NoDup (map (@n_id K) ns) -> (forall n m, In n ns -> In m seen -> n_id m <> n_id n) -> dedup_nodes ns seen = ns.
  Proof.
    induction ns as [|n ns IH]; intros seen ND H; cbn; auto. cbn in ND. inversion ND as [|? ? N1 N2]; subst. replace (in_ids n seen) with false.
    - rewrite IH; auto. intros x m Hx [<-|Hm]; [|apply H; auto; now right]. intro E. apply N1. rewrite E. now apply in_map.
    - symmetry. apply not_true_iff_false. intro E. apply existsb_exists in E. destruct E as (m & Hm & E). apply Nat.eqb_eq in E. apply (H n m); auto. now left.
  Qed.
  Lemma same_set_ok a b : same_set a b = true <-> forall e, In e a <-> In e b.
  Proof.
    unfold same_set. rewrite andb_true_iff, !forallb_forall. split.
    - intros (H1 & H2) e. split; intro H; [apply H1 in H|apply H2 in H]; apply Nat.ltb_lt, occ_in in H; auto.
    - intro H. split; intros e He; apply Nat.ltb_lt, occ_in; apply H; auto.
  Qed.
  Lemma dangling_in (ns : list (node K)) e : In e (dangling ns) <-> occ e (all_edges ns) = 1.
  Proof. unfold dangling. rewrite filter_In, Nat.eqb_eq. split; [tauto|]. intro H. split; auto. apply occ_in. lia. Qed.
  Lemma dangling_nodup (ns : list (node K)) : NoDup (dangling ns).
  Proof. apply occ_nodup. intro e. unfold dangling. rewrite occ_filter. destruct (Nat.eqb_spec (occ e (all_edges ns)) 1); lia. Qed.
  Theorem contract_correct find_path fresh ns order ignore p : net_ok ns -> NoDup (map (@n_id K) ns) -> ns <> [] ->
    find_path ns = Ok p -> good_path (List.length ns) p ->
    (ignore = true \/ exists o, Permutation o (dangling ns) /\ (order = Some o \/ order = None /\ List.length o <= 1)) ->
    exists n, ordered_contract kzero kadd kmul dim find_path fresh ns order ignore = Ok n /\ Permutation (n_edges n) (dangling ns) /\
      (ignore = false -> forall o, order = Some o -> n_edges n = o) /\ forall r, n_val n r = value ns r.
  Proof.
    intros N ND NE FP G HO. destruct (path_value fresh N G) as (n0 & fr0 & P1 & P2 & P3 & P4). destruct (path_value (fresh + List.length ns) N G) as (n & fr & Q1 & Q2 & Q3 & Q4). clear n0 fr0 P1 P2 P3 P4.
    unfold ordered_contract. rewrite (no_traces fresh (proj1 N)). assert (ID : filter (fun n => in_ids n ns) ns = ns).
    { clear. assert (H : forall l, (forall n, In n l -> in_ids n ns = true) -> filter (fun n => in_ids n ns) l = l). { induction l as [|x l IH]; cbn; auto. intro H. rewrite H by auto. rewrite IH; auto. } apply H. intros n Hn. apply existsb_exists. exists n. split; auto. apply Nat.eqb_refl. }
    set (ord := if ignore then Ok [] else _). assert (OR : exists o, ord = Ok o /\ (ignore = false -> Permutation o (dangling ns) /\ forall o', order = Some o' -> o = o')).
    { unfold ord. destruct ignore; [exists []; split; auto; discriminate|]. destruct HO as [|(o & Po & HO)]; [discriminate|]. assert (SS : forall o, Permutation o (dangling ns) -> same_set o (dangling ns) = true). { intros x Px. apply same_set_ok. intro e. split; apply Permutation_in; auto. now apply Permutation_sym. }
      destruct HO as [->|(-> & Lo)].
      - cbn [bind]. rewrite (SS o Po). exists o. split; auto. intros _. split; auto. congruence.
      - apply Permutation_length in Po as Lp. replace (1 <? List.length (dangling ns)) with false by (symmetry; apply Nat.ltb_ge; lia). cbn [bind]. rewrite SS by auto. exists (dangling ns). split; auto. intros _. split; auto. discriminate. }
    destruct OR as (o & EO & HO'). rewrite EO. cbn [bind]. rewrite ID, dedup_all by (auto; intros ? ? ? []). 
    assert (RE : forall m, (forall e, In e (n_edges m) <-> occ e (all_edges ns) = 1) -> node_ok m -> (forall r, n_val m r = value ns r) -> exists n1, (if ignore then Ok m else reorder m o) = Ok n1 /\ Permutation (n_edges n1) (dangling ns) /\ (ignore = false -> forall o', order = Some o' -> n_edges n1 = o') /\ forall r, n_val n1 r = value ns r).
    { intros m Hm (NDm & _) Vm. assert (PM : Permutation (n_edges m) (dangling ns)). { apply NoDup_Permutation; [exact NDm|apply dangling_nodup|]. intro e. rewrite dangling_in. apply Hm. }
      destruct ignore; [exists m; repeat split; auto; discriminate|]. destruct (HO' eq_refl) as (Po & Ho). unfold reorder. replace (same_set o (n_edges m)) with true. 2:{ symmetry. apply same_set_ok. intro e. rewrite <- Po in PM. split; apply Permutation_in; auto. now apply Permutation_sym. }
      replace (List.length o =? List.length (n_edges m)) with true. 2:{ symmetry. apply Nat.eqb_eq. apply Permutation_length. now rewrite Po, PM. } cbn. eexists. split; [reflexivity|]. cbn. split; auto. }
    destruct ns as [|x [|y ns']]; [contradiction| |].
    - clear FP. destruct p as [|[|a [|b [|? ?]]] p]; cbn in G; try contradiction; [|lia]. cbn in Q1. injection Q1 as <- _. apply RE; auto.
    - rewrite FP. cbn [bind]. rewrite Q1. cbn [bind fst]. apply RE; auto.
  Qed.
End Net.
(** the cached optimiser on such networks *)
Definition good_cache (o : optimizer) : Prop := forall k q, In (k, q) (o_cache o) -> good_path (List.length (fst (fst k))) q.
