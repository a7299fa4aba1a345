(** Values carried through DisCoCirc diagrams (C71, lemmas only). *)
From Coq Require Import Permutation Sorted.
From Verif Require Import PyBase PyFacts TyModel TyFacts DiagModel DiagSpec DiagFacts DiagRot DiagPerm MiscModel MiscFacts TreeModel CircModel CircSpec CircPerm.
Close Scope string_scope. Set Implicit Arguments. Unset Strict Implicit.

Section Run.
  Variables (V : Type) (bsem : box -> list V -> list V) (merge : list V -> V).
  Hypothesis R : reading bsem merge.
  Notation lrun := (lrun bsem). Notation drun := (drun bsem).
  Definition xrun (ls : list layer) (v : list V) : list V := fold_left lrun ls v.
  Lemma xrun_app a b v : xrun (a ++ b) v = xrun b (xrun a v).
  Proof. apply fold_left_app. Qed.
  Lemma skipn_add A a b (l : list A) : skipn (a + b) l = skipn b (skipn a l).
  Proof. revert l; induction a as [|a IH]; intros l; [reflexivity|]. destruct l; [now rewrite !skipn_nil | exact (IH l)]. Qed.
  Lemma lrun_len v x : List.length v = List.length (l_dom x) -> List.length (lrun v x) = List.length (l_cod x).
  Proof.
    destruct x as [[l b] r]. cbn [l_dom l_cod CircSpec.lrun]. rewrite !app_length. intros E. rewrite firstn_length, (r_arity R), skipn_length; [lia|]. rewrite firstn_length, skipn_length. lia.
  Qed.
  Lemma cut A (v : list A) n : n <= List.length v -> exists v1 v2, v = v1 ++ v2 /\ List.length v1 = n.
  Proof. intros H. exists (firstn n v), (skipn n v). split; [now rewrite firstn_skipn | rewrite firstn_length; lia]. Qed.
  Lemma firstn_exact A (u v : list A) n : List.length u = n -> firstn n (u ++ v) = u.
  Proof. intros <-. rewrite firstn_app, firstn_all, Nat.sub_diag. cbn. apply app_nil_r. Qed.
  Lemma skipn_exact A (u v : list A) n : List.length u = n -> skipn n (u ++ v) = v.
  Proof. intros <-. now rewrite skipn_app, skipn_all, Nat.sub_diag. Qed.
  Lemma lrun_split l b r v1 v2 v3 : List.length v1 = List.length l -> List.length v2 = List.length (b_dom b) -> lrun (v1 ++ v2 ++ v3) (l, b, r) = v1 ++ bsem b v2 ++ v3.
  Proof. intros E1 E2. unfold CircSpec.lrun. rewrite skipn_add, (firstn_exact _ E1), (skipn_exact _ E1), (firstn_exact _ E2), (skipn_exact _ E2). reflexivity. Qed.
  Lemma lrun_extend L T x u v t : List.length u = List.length L -> List.length v = List.length (l_dom x) -> lrun (u ++ v ++ t) (l_extend L T x) = u ++ lrun v x ++ t.
  Proof.
    destruct x as [[l b] r]. cbn [l_extend l_dom]. rewrite !app_length. intros Eu Ev. destruct (@cut _ v (List.length l)) as (v1 & v' & -> & E1); [lia|]. rewrite app_length in Ev. destruct (@cut _ v' (List.length (b_dom b))) as (v2 & v3 & -> & E2); [lia|].
    rewrite (lrun_split _ _ E1 E2). transitivity (lrun ((u ++ v1) ++ v2 ++ (v3 ++ t)) (L ++ l, b, r ++ T)); [now rewrite !app_assoc|]. rewrite lrun_split; [now rewrite !app_assoc | rewrite !app_length; lia | exact E2].
  Qed.
  Lemma xrun_extend L T ls : forall d c u v t, chain d ls c -> List.length u = List.length L -> List.length v = List.length d -> xrun (map (l_extend L T) ls) (u ++ v ++ t) = u ++ xrun ls v ++ t.
  Proof.
    induction ls as [|x ls IH]; intros d c u v t C Eu Ev; [reflexivity|]. destruct C as [-> C]. cbn [map xrun fold_left]. fold (xrun ls). rewrite lrun_extend by auto. apply (IH _ _ _ _ _ C Eu). now apply lrun_len.
  Qed.
  Lemma xrun_len ls : forall d c v, chain d ls c -> List.length v = List.length d -> List.length (xrun ls v) = List.length c.
  Proof. induction ls as [|x ls IH]; intros d c v C Ev; [cbn in C; subst; exact Ev|]. destruct C as [-> C]. apply (IH _ _ _ C). now apply lrun_len. Qed.
  Lemma drun_len d v : wf d -> List.length v = List.length (dom d) -> List.length (drun d v) = List.length (cod d).
  Proof. intros [C _]. now apply xrun_len. Qed.
  Lemma drun_id t v : drun (id t) v = v.
  Proof. reflexivity. Qed.
  Lemma drun_then a b c v : d_then a b = Ok c -> drun c v = drun b (drun a v).
  Proof.
    intros H. unfold d_then, then_list, then_loop in H. destruct (negb (ty_eqb (dom b) (cod a))); [discriminate|]. cbn [bind] in H. injection H as <-. apply xrun_app.
  Qed.
  Lemma drun_tensor a b u v : wf a -> wf b -> List.length u = List.length (dom a) -> List.length v = List.length (dom b) -> drun (tensor a b) (u ++ v) = drun a u ++ drun b v.
  Proof.
    intros [Ca _] [Cb _] Eu Ev. rewrite tensor_eq. unfold CircSpec.drun. cbn [layers]. fold (xrun (map (l_extend [] (dom b)) (layers a) ++ map (l_extend (cod a) []) (layers b)) (u ++ v)). rewrite xrun_app.
    assert (E := @xrun_extend [] (dom b) (layers a) _ _ [] u v Ca eq_refl Eu). cbn [app] in E. rewrite E. assert (E2 := @xrun_extend (cod a) [] (layers b) _ _ (xrun (layers a) u) v [] Cb ltac:(now apply (xrun_len Ca)) Ev). rewrite !app_nil_r in E2. exact E2.
  Qed.
  Lemma dagger_tensor a b u v : wf a -> wf b -> List.length u = List.length (cod a) -> List.length v = List.length (cod b) -> drun (d_dagger (tensor a b)) (u ++ v) = drun (d_dagger a) u ++ drun (d_dagger b) v.
  Proof.
    intros Wa Wb Eu Ev. assert (Wab : wf (tensor a b)) by (now apply wf_tensor). assert (Da := wf_dagger Wa). assert (Db := wf_dagger Wb). rewrite (d_dagger_eq Wab). rewrite (d_dagger_eq Wa) in *. rewrite (d_dagger_eq Wb) in *. rewrite tensor_eq. unfold CircSpec.drun. cbn [layers dom cod].
    rewrite rev_app_distr, map_app. fold (xrun (map l_dagger (rev (map (l_extend (cod a) []) (layers b))) ++ map l_dagger (rev (map (l_extend [] (dom b)) (layers a)))) (u ++ v)). rewrite xrun_app.
    assert (X : forall L T ls, map l_dagger (rev (map (l_extend L T) ls)) = map (l_extend L T) (map l_dagger (rev ls))). { intros. rewrite <- map_rev, !map_map. apply map_ext. now intros [[? ?] ?]. } rewrite !X.
    destruct Da as [Ca _], Db as [Cb _]. cbn [dom cod layers] in *. assert (E := @xrun_extend (cod a) [] (map l_dagger (rev (layers b))) _ _ u v [] Cb Eu Ev). rewrite !app_nil_r in E. rewrite E.
    exact (@xrun_extend [] (dom b) (map l_dagger (rev (layers a))) _ _ [] u _ Ca eq_refl Eu).
  Qed.
  Lemma dagger_then a b c v : wf a -> wf b -> d_then a b = Ok c -> drun (d_dagger c) v = drun (d_dagger a) (drun (d_dagger b) v).
  Proof.
    intros Wa Wb H. assert (Ec : cod a = dom b). { unfold d_then, then_list, then_loop in H. destruct (ty_eqb_spec (dom b) (cod a)); [congruence | discriminate]. } rewrite (d_then_ok _ _ Ec) in H. injection H as <-.
    assert (Wc : wf (Diag (dom a) (cod b) (layers a ++ layers b))). { destruct Wa as [Ca Oa], Wb as [Cb Ob]. split; cbn [layers dom cod]; [eapply chain_app_i; [exact Ca | rewrite Ec; exact Cb] | apply All_app; split; assumption]. }
    rewrite (d_dagger_eq Wc), (d_dagger_eq Wa), (d_dagger_eq Wb). unfold CircSpec.drun. cbn [layers]. rewrite rev_app_distr, map_app. apply xrun_app.
  Qed.
  Lemma run_drun d v u : run d v = Some u -> drun d v = u.
  Proof.
    unfold run, CircSpec.drun. generalize (layers d). intros ls. revert v. induction ls as [|x ls IH]; intros v; cbn [run_layers fold_left]; [congruence|]. destruct (run_layer x v) as [v'|] eqn:E; [|discriminate]. intros H. rewrite <- (IH _ H). f_equal.
    destruct x as [[l b] r]. unfold run_layer in E. destruct b as [| | | |s1 s2| | | |]; try discriminate. cbn [CircSpec.lrun]. change (b_dom (Swap s1 s2)) with [s1; s2]. cbn [List.length].
    destruct (skipn (List.length l) v) as [|x [|y v2]] eqn:Es; try discriminate. injection E as <-. rewrite skipn_add, Es. cbn [firstn skipn]. now rewrite (r_swap R).
  Qed.
  Lemma run_dagger d : wf d -> forall v u : list V, run d v = Some u -> run (d_dagger d) u = Some v.
  Proof.
    intros W v u H. rewrite (d_dagger_eq W). unfold run in *. cbn [layers]. clear W. revert v u H. generalize (layers d). clear d. intros ls. induction ls as [|x ls IH]; intros v u; cbn [run_layers rev map]; [congruence|]. destruct (run_layer x v) as [v'|] eqn:E; [|discriminate]. intros H.
    rewrite map_app, run_layers_app, (IH _ _ H). cbn [map run_layers]. enough (run_layer (l_dagger x) v' = Some v) as -> by reflexivity. clear -E. destruct x as [[l b] r]. unfold run_layer in *. destruct b as [| | | |s1 s2| | | |]; try discriminate. cbn [l_dagger b_dagger].
    destruct (skipn (List.length l) v) as [|x [|y v2]] eqn:Es; try discriminate. injection E as <-. assert (Lv : List.length l <= List.length v) by (assert (X := f_equal (@List.length V) Es); rewrite skipn_length in X; cbn in X; lia).
    assert (Lf : List.length (firstn (List.length l) v) = List.length l) by (rewrite firstn_length; lia). rewrite (firstn_exact _ Lf), (skipn_exact _ Lf). f_equal. rewrite <- (firstn_skipn (List.length l) v) at 2. now rewrite Es.
  Qed.
  Lemma merge_one x : merge [x] = x.
  Proof. assert (E := r_copy R a_n 1 x). rewrite (r_merge R a_n (m := 1)) in E by reflexivity. cbn in E. congruence. Qed.

  (** ** spiders *)
  Definition leg (ids : list nat) (w : nat) : diagram := if (occurrences w ids =? 1)%nat then id NOUN else to_diag (Spider a_n 1 (occurrences w ids)).
  Definition spiders (ids : list nat) (K : nat) : diagram := tensor_list (id []) (map (leg ids) (seq 0 K)).
  Lemma spiders_S ids K : spiders ids (S K) = tensor (spiders ids K) (leg ids K).
  Proof. unfold spiders. rewrite seq_S, map_app. apply tensor_list_snoc. Qed.
  Lemma leg_ok ids w : wf (leg ids w) /\ dom (leg ids w) = NOUN /\ cod (leg ids w) = repeat a_n (occurrences w ids).
  Proof. unfold leg. destruct (Nat.eqb_spec (occurrences w ids) 1) as [->|]; [repeat split | split; [now apply wf_to_diag | split; reflexivity]]. Qed.
  Lemma spiders_ok ids K : wf (spiders ids K) /\ dom (spiders ids K) = repeat a_n K /\ cod (spiders ids K) = repeat a_n (below K ids).
  Proof.
    induction K as [|K (W & D & C)].
    - split; [apply wf_id|]. split; [reflexivity|]. replace (below 0 ids) with 0; [reflexivity|]. unfold below. induction ids; auto.
    - destruct (leg_ok ids K) as (Wl & Dl & Cl). rewrite spiders_S. split; [now apply wf_tensor|]. rewrite tensor_eq. cbn [dom cod]. rewrite D, C, Dl, Cl, below_S. split; [|now rewrite <- repeat_app]. change NOUN with (repeat a_n 1). rewrite <- repeat_app. f_equal. lia.
  Qed.
  Lemma leg_run ids w x : drun (leg ids w) [x] = repeat x (occurrences w ids).
  Proof. unfold leg. destruct (Nat.eqb_spec (occurrences w ids) 1) as [->|]; [reflexivity|]. unfold CircSpec.drun. cbn. rewrite (r_copy R). apply app_nil_r. Qed.
  Lemma leg_dagger ids w v : List.length v = occurrences w ids -> drun (d_dagger (leg ids w)) v = [merge v].
  Proof.
    intros E. unfold leg. destruct (Nat.eqb_spec (occurrences w ids) 1) as [E1|N].
    - rewrite E1 in E. destruct v as [|x [|]]; try discriminate. cbn. now rewrite merge_one.
    - unfold CircSpec.drun. cbn [d_dagger to_diag layers rev map app l_dagger b_dagger fold_left CircSpec.lrun List.length firstn skipn Nat.add]. change (b_dom (Spider a_n (occurrences w ids) 1)) with (repeat a_n (occurrences w ids)). rewrite repeat_length, <- E, firstn_all, skipn_all, app_nil_r. now apply (r_merge R).
  Qed.
  Lemma spiders_run (d : V) ids K : forall vs, List.length vs = K -> drun (spiders ids K) vs = blocks (fun w => repeat (nth w vs d) (occurrences w ids)) K.
  Proof.
    induction K as [|K IH]; intros vs E; [destruct vs; [reflexivity | discriminate]|]. destruct (exists_last (l := vs) ltac:(destruct vs; discriminate)) as (vs' & x & ->). rewrite app_length in E. cbn in E. assert (E' : List.length vs' = K) by lia.
    destruct (spiders_ok ids K) as (W & D & _), (leg_ok ids K) as (Wl & Dl & _). rewrite spiders_S, blocks_S, drun_tensor; auto; [| rewrite D, repeat_length; exact E' | rewrite Dl; reflexivity]. rewrite (IH _ E'), leg_run. f_equal.
    - unfold blocks. f_equal. apply map_ext_in. intros w Hw. apply in_seq in Hw. now rewrite app_nth1 by lia.
    - rewrite app_nth2, E', Nat.sub_diag by lia. reflexivity.
  Qed.
  Lemma spiders_dagger ids K f : (forall w, w < K -> List.length (f w) = occurrences w ids) -> drun (d_dagger (spiders ids K)) (blocks f K) = map (fun w => merge (f w)) (seq 0 K).
  Proof.
    induction K as [|K IH]; intros H; [reflexivity|]. destruct (spiders_ok ids K) as (W & D & C), (leg_ok ids K) as (Wl & Dl & Cl). rewrite spiders_S, blocks_S, dagger_tensor; auto.
    - rewrite IH by (intros; apply H; lia). rewrite seq_S, map_app, leg_dagger by (apply H; lia). reflexivity.
    - rewrite C, repeat_length. apply blocks_len. intros; apply H; lia.
    - rewrite Cl, repeat_length. apply H. lia.
  Qed.
End Run.
