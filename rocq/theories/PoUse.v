(** Proofs: contraction with the cached optimiser. *)
From Coq Require Import Ring_theory.
From Verif Require Import PyBase PyFacts PoModel PoSpec PoCache PoNet.
Set Implicit Arguments. Unset Strict Implicit.

Lemma mapM_len X Y (f : X -> res Y) l : forall m, mapM f l = Ok m -> List.length m = List.length l.
Proof. induction l as [|x l IH]; cbn; intros m H; [injection H as <-; auto|]. destruct (f x); [|discriminate]. cbn in H. destruct (mapM f l) eqn:E; [|discriminate]. injection H as <-. cbn. f_equal. now apply IH. Qed.
Lemma key_len sym p k : make_key sym p = Ok k -> List.length (fst (fst k)) = List.length (p_inputs p).
Proof.
  unfold make_key. destruct (p_edges p) as [l|]; [|discriminate]. destruct (mapM _ l) as [sz|]; [|discriminate]. cbn [bind]. destruct (mapM (fun s => _) (p_inputs p)) as [ins|] eqn:E; [|discriminate]. cbn [bind]. destruct (mapM _ (p_output p)); [|discriminate]. cbn. intros [= <-]. cbn. now apply mapM_len in E.
Qed.
(** a search that finds good paths only *)
Definition good_search (search : problem -> option nat -> res path) : Prop := forall p lim q, search p lim = Ok q -> good_path (List.length (p_inputs p)) q.
Lemma call_good sym search o p lim : good_search search -> good_cache o ->
  good_cache (fst (opt_call sym search o p lim)) /\ forall q, snd (opt_call sym search o p lim) = Ok q -> good_path (List.length (p_inputs p)) q.
Proof.
  intros S G. assert (GC : good_cache (fst (opt_call sym search o p lim))).
  { unfold opt_call. destruct (make_key sym p) as [k|] eqn:EK; auto. destruct (cache_get k (o_cache o)) eqn:EG; auto. destruct (search p _) as [q|] eqn:ES; auto. destruct (@add_spec k q o EG) as (o1 & r & A1 & A2 & _). rewrite A1. cbn [fst]. intros k' q' H. rewrite A2 in H. apply (add_new_in EG) in H. destruct H as [H|H]; [apply G; auto|]. injection H as -> ->. rewrite (key_len EK). eapply S; eauto. }
  split; auto. intros q H. apply call_stores in H. destruct H as (k & EK & EG). apply get_in in EG. rewrite <- (key_len EK). now apply GC.
Qed.
Lemma dedup_rev_in (l : list nat) e : In e (rev (nodup Nat.eq_dec (rev l))) <-> In e l.
Proof. rewrite <- in_rev, nodup_In, <- in_rev. reflexivity. Qed.
Lemma path_problem_proper K dim (ns : list (node K)) : proper (path_problem dim ns).
Proof.
  exists (rev (nodup Nat.eq_dec (rev (all_edges ns)))). split; [reflexivity|]. split; [apply NoDup_rev, NoDup_nodup|]. split; [|split].
  - intros e H. apply (proj1 (dedup_rev_in _ _)) in H. exists (dim e). unfold path_problem. cbn [p_size]. apply occ_in in H. apply Nat.ltb_lt in H. now rewrite H.
  - intros s e Hs He. apply dedup_rev_in. cbn in Hs. apply in_map_iff in Hs. destruct Hs as (n & <- & Hn). apply nodup_In in He. unfold all_edges. apply in_concat. exists (n_edges n). split; auto. now apply in_map.
  - intros e He. apply dedup_rev_in. cbn in He. unfold dangling in He. apply filter_In in He. tauto.
Qed.
Theorem cached_contract K (kzero kone : K) kadd kmul dim (SR : semi_ring_theory kzero kone kadd kmul (@eq K)) sym search o fresh ns order ignore p :
  net_ok ns -> NoDup (map (@n_id K) ns) -> ns <> [] -> good_search search -> good_cache o ->
  snd (opt_call sym search o (path_problem dim ns) None) = Ok p ->
  (ignore = true \/ exists o, Permutation o (dangling ns) /\ (order = Some o \/ order = None /\ List.length o <= 1)) ->
  exists n, ordered_contract kzero kadd kmul dim (fun ns => snd (opt_call sym search o (path_problem dim ns) None)) fresh ns order ignore = Ok n /\ Permutation (n_edges n) (dangling ns) /\
    (ignore = false -> forall o, order = Some o -> n_edges n = o) /\ forall r, n_val n r = net_value kzero kone kadd kmul dim ns r.
Proof.
  intros N ND NE S G C HO. apply (@contract_correct K kzero kone kadd kmul dim SR _ fresh ns order ignore p); auto.
  destruct (@call_good sym search o (path_problem dim ns) None S G) as (_ & H). apply H in C. cbn in C. now rewrite map_length in C.
Qed.
(** an empty cache: the search is given the memory limit asked for, else that of the optimizer *)
Lemma call_limit sym search o p k lim : make_key sym p = Ok k -> o_cache o = [] -> o_file o <> Some Directory ->
  snd (opt_call sym search o p lim) = search p (or_limit lim (o_limit o)).
Proof.
  intros E C F. unfold opt_call. rewrite E, C. cbn [cache_get]. destruct (search p _) as [q|e]; [|reflexivity].
  assert (R : key_eqb k k = true) by apply key_eqb_refl.
  unfold add_path. rewrite C. destruct (o_file o) as [[]|] eqn:EF; try congruence; cbn; now rewrite R.
Qed.
(** one node, with whatever edges to itself *)
Lemma single_contract K (kzero kone : K) kadd kmul dim : semi_ring_theory kzero kone kadd kmul (@eq K) -> forall find_path fresh n order ignore,
  (forall e, occ e (n_edges n) <= 2) ->
  (ignore = true \/ exists o, Permutation o (dangling [n]) /\ (order = Some o \/ order = None /\ List.length o <= 1)) ->
  exists n', ordered_contract kzero kadd kmul dim find_path fresh [n] order ignore = Ok n' /\ Permutation (n_edges n') (dangling [n]) /\
    (ignore = false -> forall o, order = Some o -> n_edges n' = o) /\ forall r, n_val n' r = net_value kzero kone kadd kmul dim [n] r.
Proof.
  intros SR find_path fresh n order ignore H2 HO.
  assert (AE : all_edges [n] = n_edges n) by (unfold all_edges; cbn; apply app_nil_r).
  set (m := if existsb (is_trace n) (n_edges n) then contract_trace kzero kadd dim fresh n else n).
  assert (CT : contract_traces kzero kadd dim fresh [n] = [m]) by (unfold m; cbn; destruct (existsb _ _); reflexivity).
  assert (ME : n_edges m = dangling [n]).
  { unfold m, dangling. rewrite AE. destruct (existsb (is_trace n) (n_edges n)) eqn:EX.
    - cbn [contract_trace n_edges]. apply filter_ext_in. intros e He. unfold is_trace. apply occ_in in He. specialize (H2 e). destruct (Nat.eqb_spec (occ e (n_edges n)) 2), (Nat.eqb_spec (occ e (n_edges n)) 1); try reflexivity; lia.
    - symmetry. transitivity (filter (fun _ => true) (n_edges n)); [|clear; induction (n_edges n) as [|x l IH]; [reflexivity|cbn; now rewrite IH]]. apply filter_ext_in. intros e He. assert (T : is_trace n e = false).
      { destruct (is_trace n e) eqn:T; [|reflexivity]. enough (existsb (is_trace n) (n_edges n) = true) by congruence. apply existsb_exists. eauto. }
      unfold is_trace in T. apply Nat.eqb_neq in T. apply occ_in in He. specialize (H2 e). apply Nat.eqb_eq. lia. }
  assert (MV : forall r, n_val m r = net_value kzero kone kadd kmul dim [n] r).
  { intro r. unfold net_value, inner. rewrite AE. cbn [fold_right].
    assert (Z : forall es r, sum_edges kzero kadd dim es (fun r => kmul (n_val n r) kone) r = sum_edges kzero kadd dim es (n_val n) r).
    { intros es r0. apply ssum_ext. intros r1. rewrite (SRmul_comm SR). apply (SRmul_1_l SR). }
    rewrite Z. unfold m. destruct (existsb (is_trace n) (n_edges n)) eqn:EX; [reflexivity|].
    replace (filter (fun e => occ e (n_edges n) =? 2) (n_edges n)) with (@nil nat); [reflexivity|]. symmetry. fold (is_trace n).
    destruct (filter (is_trace n) (n_edges n)) as [|x l] eqn:F; [reflexivity|]. assert (I : In x (filter (is_trace n) (n_edges n))) by (rewrite F; now left).
    apply filter_In in I. enough (existsb (is_trace n) (n_edges n) = true) by congruence. apply existsb_exists. eauto. }
  unfold ordered_contract. rewrite CT. destruct HO as [-> | (o & PO & HO)].
  - cbn [bind]. exists m. rewrite ME. split; [reflexivity|]. split; [reflexivity|]. split; [discriminate|exact MV].
  - destruct ignore; [exists m; cbn [bind]; rewrite ME; split; [reflexivity|]; split; [reflexivity|]; split; [discriminate|exact MV]|].
    assert (SS : forall a b, Permutation a b -> same_set a b = true).
    { intros a b P. apply same_set_ok. intro e. split; intro I; [eapply Permutation_in; [exact P|exact I]|eapply Permutation_in; [symmetry; exact P|exact I]]. }
    assert (RO : forall o', Permutation o' (dangling [n]) -> reorder m o' = Ok (Node (n_id m) o' (n_val m))).
    { intros o' P'. unfold reorder. rewrite ME, (SS _ _ P'), (Permutation_length P'), Nat.eqb_refl. reflexivity. }
    destruct HO as [-> | [-> L]].
    + cbn [bind]. rewrite (SS _ _ PO). cbn [bind]. rewrite (RO _ PO). eexists. split; [reflexivity|]. cbn [n_edges n_val]. split; [exact PO|]. split; [now intros _ o' [= ->]|exact MV].
    + rewrite (Permutation_length PO) in L. destruct (Nat.ltb_spec 1 (List.length (dangling [n]))); [lia|]. cbn [bind]. rewrite (SS _ _ (Permutation_refl _)). cbn [bind].
      rewrite (RO _ (Permutation_refl _)). eexists. split; [reflexivity|]. cbn [n_edges n_val]. split; [reflexivity|]. split; [discriminate|exact MV].
Qed.
(** requests that are refused *)
Lemma bad_order K (kzero : K) kadd kmul dim find_path fresh ns order :
  (order = None /\ 2 <= List.length (dangling ns)) \/ (exists o, order = Some o /\ exists e, In e o /\ ~ In e (dangling ns) \/ In e (dangling ns) /\ ~ In e o) ->
  ordered_contract kzero kadd kmul dim find_path fresh ns order false = Err ValueError.
Proof.
  intros H. unfold ordered_contract. destruct H as [[-> H] | (o & -> & e & H)].
  - destruct (Nat.ltb_spec 1 (List.length (dangling ns))); [reflexivity|lia].
  - cbn [bind]. destruct (same_set o (dangling ns)) eqn:E; [|reflexivity]. rewrite same_set_ok in E; specialize (E e). exfalso. tauto.
Qed.
