(** One sentence of a DisCoCirc circuit (C71, lemmas only). *)
From Coq Require Import Permutation Sorted.
From Verif Require Import PyBase PyFacts TyModel TyFacts DiagModel DiagSpec DiagFacts DiagRot DiagPerm MiscModel MiscFacts TreeModel CircModel CircSpec CircPerm CircRun CircMatch.
Close Scope string_scope. Set Implicit Arguments. Unset Strict Implicit.

Lemma nn_repeat k : nn k = repeat a_n k.
Proof. unfold nn, NOUN. induction k as [|k IH]; [reflexivity|]. cbn in *. now rewrite IH. Qed.
Lemma nn_len k : List.length (nn k) = k.
Proof. now rewrite nn_repeat, repeat_length. Qed.
Lemma nth_repeat_ A (x d : A) n : forall k, k < n -> nth k (repeat x n) d = x.
Proof. induction n as [|n IH]; intros [|k] H; cbn; try lia; auto. apply IH. lia. Qed.
(** a permutation of noun wires *)
Lemma nperm_ok n p : Permutation p (seq 0 n) -> exists d, permutation (nn n) p = Ok d /\ typed d (repeat a_n n) (repeat a_n n) /\ forall X (dx : X) v, List.length v = n -> run d v = Some (map (fun k => nth k v dx) p).
Proof.
  intros P. destruct (@permutation_route (nn n) p) as (d & E & W & D & C & Rn); [now rewrite nn_len|]. exists d. split; [exact E|]. rewrite nn_repeat in *. split; [|intros X dx v L; apply Rn; now rewrite repeat_length]. split; [exact W|]. split; [exact D|]. rewrite C.
  assert (L := Permutation_length P). rewrite seq_length in L. transitivity (repeat a_n (List.length p)); [|now rewrite L]. assert (B : forall k, In k p -> k < n) by (intros k Hk; apply (Permutation_in _ P) in Hk; apply in_seq in Hk; lia). clear -B. induction p as [|k p IH]; [reflexivity|]. cbn. rewrite nth_repeat_ by (apply B; now left). f_equal. apply IH. intros; apply B; now right.
Qed.
Lemma typed_dagger d s t : typed d s t -> typed (d_dagger d) t s.
Proof. intros (W & D & C). split; [now apply wf_dagger|]. rewrite (d_dagger_eq W). cbn. auto. Qed.
Lemma picked_map X (f : nat -> X) ids w : picked ids (map f ids) w = repeat (f w) (occurrences w ids).
Proof.
  unfold picked, occurrences. induction ids as [|v ids IH]; [reflexivity|]. cbn [map combine filter fst]. rewrite (Nat.eqb_sym w v). destruct (Nat.eqb_spec v w) as [->|]; cbn; congruence.
Qed.
Lemma blocks_ext X (f g : nat -> list X) K : (forall w, w < K -> f w = g w) -> blocks f K = blocks g K.
Proof. intros H. unfold blocks. f_equal. apply map_ext_in. intros w Hw. apply in_seq in Hw. apply H. lia. Qed.
Lemma list_max_top ids K : Forall (fun w => w < K) ids -> (forall w, w < K -> In w ids) -> 0 < K -> S (list_max ids) = K.
Proof.
  intros F A P. assert (list_max ids <= K - 1). { apply list_max_le. eapply Forall_impl; [|exact F]. intros w Hw. cbn in *. lia. }
  assert (I : In (K - 1) ids) by (apply A; lia). assert (X := proj1 (list_max_le ids (list_max ids)) (le_n _)). rewrite Forall_forall in X. specialize (X _ I). lia.
Qed.
(** ** the matcher *)
Section Matcher.
  Variables (ids : list nat) (K : nat).
  Hypotheses (Fl : Forall (fun w => w < K) ids) (Al : forall w, w < K -> In w ids).
  Lemma matcher_ok : exists permute matcher, permutation (nn (List.length ids)) (ranks ids [] ids) = Ok permute /\ d_then (spiders ids K) permute = Ok matcher /\ typed matcher (repeat a_n K) (repeat a_n (List.length ids)) /\
    forall V (bsem : box -> list V -> list V) merge, reading bsem merge ->
      (forall (d : V) vs, List.length vs = K -> drun bsem matcher vs = map (fun w => nth w vs d) ids) /\
      (forall o, List.length o = List.length ids -> drun bsem (d_dagger matcher) o = map (fun w => merge (picked ids o w)) (seq 0 K)).
  Proof.
    destruct (nperm_ok (ranks_perm ids)) as (permute & Ep & Tp & Rp). destruct (spiders_ok ids K) as (Ws & Ds & Cs). rewrite (below_all Fl) in Cs.
    destruct (@typed_then (spiders ids K) permute (repeat a_n K) (repeat a_n (List.length ids)) (repeat a_n (List.length ids))) as (matcher & Em & Tm); [repeat split; auto; apply Ws | exact Tp|].
    exists permute, matcher. split; [exact Ep|]. split; [exact Em|]. split; [exact Tm|]. intros V bsem merge R. split.
    - intros d vs L. rewrite (drun_then _ _ Em), (spiders_run R d _ L). rewrite (@blocks_ext _ _ (picked ids (map (fun w => nth w vs d) ids))) by (intros; symmetry; apply (picked_map (fun w => nth w vs d))).
      apply (run_drun R). rewrite (Rp _ d); [|rewrite (blocks_len (ids := ids)); [apply (below_all Fl) | intros; apply picked_len; now rewrite map_length]]. f_equal. apply ranks_blocks; [now rewrite map_length | exact Fl].
    - intros o L. rewrite (@dagger_then _ bsem _ _ _ _ Ws (proj1 Tp) Em).
      assert (B : List.length (blocks (picked ids o) K) = List.length ids) by (rewrite (blocks_len (ids := ids)); [apply (below_all Fl) | intros; now apply picked_len]).
      assert (E : run permute (blocks (picked ids o) K) = Some o).
      { destruct o as [|d o]; [|rewrite (Rp _ d _ B); f_equal; now apply ranks_blocks]. assert (ids = []) by (destruct ids; [reflexivity | discriminate]). subst ids. destruct (blocks _ _) as [|x ?]; [|discriminate]. assert (Y := Rp V). cbn in *.
        clear -Ep. vm_compute in Ep. injection Ep as <-. reflexivity. }
      rewrite (run_drun R (run_dagger (proj1 Tp) E)). apply (spiders_dagger R). intros. now apply picked_len.
  Qed.
End Matcher.
(** ** one sentence *)
Section Step.
  Variables (K : Type) (eqk : K -> K -> bool).
  Hypothesis eqk_ok : forall a b, eqk a b = true <-> a = b.
  Notation index_of := (index_of eqk). Notation news := (news eqk). Notation wires := (wires eqk).
  Lemma anc_eq es (fr : list K) nids : NoDup (es ++ fr) -> (forall e, In e (fr) -> In e nids) -> let es' := es ++ fr in let slots := map (fun e => index_of e es') nids in
    filter (fun v => negb (existsb (Nat.eqb v) slots)) (seq 0 (List.length es)) ++ slots = wires es' nids.
  Proof.
    intros N H es' slots. unfold CircMatch.wires. fold slots. f_equal. unfold es'. rewrite app_length, seq_app, filter_app. cbn [Nat.add]. enough (E : filter (fun v => negb (existsb (Nat.eqb v) slots)) (seq (List.length es) (List.length (fr))) = []) by (rewrite E; now rewrite app_nil_r).
    destruct (filter _ _) as [|w l] eqn:E; [reflexivity|]. exfalso. assert (I : In w (filter (fun v => negb (existsb (Nat.eqb v) slots)) (seq (List.length es) (List.length (fr))))) by (rewrite E; now left). apply filter_In in I. destruct I as [I Nw]. apply in_seq in I.
    apply negb_true_iff in Nw. enough (existsb (Nat.eqb w) slots = true) by congruence. apply existsb_exists. exists w. split; [|apply Nat.eqb_refl]. assert (d0 : K) by (destruct fr as [|d0 ?]; [exfalso; cbn in I; lia | exact d0]).
    assert (He : In (nth (w - List.length es) (fr) d0) nids) by (apply H, nth_In; lia). apply in_map_iff. exists (nth (w - List.length es) (fr) d0). split; [|exact He].
    assert (X : nth (w - List.length es) (fr) d0 = nth w es' d0) by (unfold es'; rewrite app_nth2 by lia; reflexivity). rewrite X. apply (index_nth eqk_ok); [exact N|]. unfold es'. rewrite app_length. lia.
  Qed.
  Section Sem.
    Variables (V : Type) (bsem : box -> list V -> list V) (merge : list V -> V).
    Hypothesis R : reading bsem merge.
    Lemma gather_eq d es (vs : list V) nids : List.length vs = List.length es -> (forall e, In e nids -> In e es) -> gather eqk es vs nids = map (fun e => nth (index_of e es) vs d) nids.
    Proof.
      intros L H. unfold gather. induction nids as [|e nids IH]; [reflexivity|]. cbn [map List.concat]. rewrite IH by (intros; apply H; now right). assert (I : index_of e es < List.length vs) by (rewrite L; apply (index_lt eqk_ok), H; now left).
      destruct (skipn (index_of e es) vs) as [|x l] eqn:E; [assert (X := f_equal (@List.length V) E); rewrite skipn_length in X; cbn in X; lia|]. cbn [firstn app]. f_equal. rewrite <- (firstn_skipn (index_of e es) vs), E, app_nth2 by (rewrite firstn_length; lia). rewrite firstn_length, Nat.min_l, Nat.sub_diag by lia. reflexivity.
    Qed.
    Lemma scatter_eq d es (vs : list V) nids outs : NoDup es -> List.length vs = List.length es -> (forall e, In e nids -> In e es) -> List.length outs = List.length nids ->
      let slots := map (fun e => index_of e es) nids in let anc := filter (fun v => negb (existsb (Nat.eqb v) slots)) (seq 0 (List.length es)) in
      map (fun w => merge (picked (anc ++ slots) (map (fun w => nth w vs d) anc ++ outs) w)) (seq 0 (List.length es)) = scatter eqk merge es vs nids outs.
    Proof.
      intros N L H Lo slots anc. unfold scatter.
      assert (P : forall w, w < List.length es -> merge (picked (anc ++ slots) (map (fun w => nth w vs d) anc ++ outs) w) = match picked slots outs w with [] => nth w vs d | xs => merge xs end).
      { intros w Hw. rewrite picked_app by (now rewrite map_length). rewrite (picked_map (fun w => nth w vs d)). destruct (existsb (Nat.eqb w) slots) eqn:E.
        - assert (Z0 : occurrences w anc = 0). { apply occ_zero. intros I. apply filter_In in I. rewrite E in I. destruct I; discriminate. } rewrite Z0. cbn [repeat app]. destruct (picked slots outs w) as [|x xs] eqn:Ep; [|reflexivity].
          exfalso. assert (X : List.length (picked slots outs w) = occurrences w slots) by (apply picked_len; unfold slots; now rewrite map_length). rewrite Ep in X. apply existsb_exists in E. destruct E as (y & Hy & ->%Nat.eqb_eq). apply occ_pos in Hy. cbn in X. lia.
        - assert (Z0 : occurrences w slots = 0). { apply occ_zero. intros I. enough (existsb (Nat.eqb w) slots = true) by congruence. apply existsb_exists. exists w. split; [exact I | apply Nat.eqb_refl]. }
          assert (X : List.length (picked slots outs w) = occurrences w slots) by (apply picked_len; unfold slots; now rewrite map_length). rewrite Z0 in X. destruct (picked slots outs w); [|discriminate]. rewrite app_nil_r.
          assert (O1 : occurrences w anc = 1). { unfold anc, occurrences. rewrite (filter_ext_in _ (fun v => Nat.eqb w v)) by reflexivity. 
            assert (Ex : forall l, filter (Nat.eqb w) (filter (fun v => negb (existsb (Nat.eqb v) slots)) l) = filter (Nat.eqb w) l).
            { clear -E. induction l as [|v l IH]; [reflexivity|]. cbn. destruct (existsb (Nat.eqb v) slots) eqn:Ev; cbn; destruct (Nat.eqb_spec w v) as [<-|]; cbn; congruence. }
            rewrite Ex. clear -Hw. assert (G : forall n a, a <= w < a + n -> List.length (filter (Nat.eqb w) (seq a n)) = 1).
            { induction n as [|n IH]; intros a Ha; [lia|]. cbn [seq filter]. destruct (Nat.eqb_spec w a) as [->|]; [|apply IH; lia]. cbn [List.length]. f_equal. apply (occ_zero (w := a)). intros I. apply in_seq in I. lia. }
            apply G. lia. }
          rewrite O1. cbn [repeat]. apply (merge_one R). }
      assert (Q : forall e w, e = nth w es e -> w < List.length es -> map snd (filter (fun p => eqk (fst p) e) (combine nids outs)) = picked slots outs w).
      { intros e w Ee Hw. unfold picked, slots. clear P Lo anc slots. revert outs. induction nids as [|x nids IH]; intros outs; [reflexivity|]. destruct outs as [|o outs]; [reflexivity|]. cbn [map combine filter fst]. specialize (IH ltac:(intros; apply H; now right) outs).
        assert (Eq : eqk x e = (index_of x es =? w)). { destruct (eqk x e) eqn:E.
          - apply eqk_ok in E. subst x. symmetry. apply Nat.eqb_eq. rewrite Ee. apply (index_nth eqk_ok); auto.
          - symmetry. apply Nat.eqb_neq. intros Ei. assert (X := nth_index eqk_ok e (H x (or_introl eq_refl))). rewrite Ei, <- Ee in X. subst x. rewrite (proj2 (eqk_ok e e) eq_refl) in E. discriminate. }
        rewrite Eq. destruct (index_of x es =? w); cbn [map snd]; now rewrite IH. }
      assert (G : forall es2 vs2 k, (forall i, i < List.length es2 -> forall e, nth (k + i) es e = nth i es2 e) -> (forall i, i < List.length es2 -> nth (k + i) vs d = nth i vs2 d) -> k + List.length es2 <= List.length es -> List.length vs2 = List.length es2 ->
        map (fun w => merge (picked (anc ++ slots) (map (fun w => nth w vs d) anc ++ outs) w)) (seq k (List.length es2)) = map (fun '(e, v) => match map snd (filter (fun p => eqk (fst p) e) (combine nids outs)) with [] => v | xs => merge xs end) (combine es2 vs2)).
      { induction es2 as [|e es2 IH]; intros vs2 k He Hv Hk Hl; [reflexivity|]. destruct vs2 as [|v vs2]; [discriminate|]. cbn [List.length] in *. cbn [seq map combine]. f_equal.
        - rewrite P by lia. rewrite (Q e k); [| specialize (He 0 ltac:(lia) e); cbn in He; rewrite Nat.add_0_r in He; congruence | lia]. specialize (Hv 0 ltac:(lia)). cbn in Hv. rewrite Nat.add_0_r in Hv. now rewrite Hv.
        - apply IH; try lia; [intros i Hi e0; specialize (He (S i) ltac:(lia) e0) | intros i Hi; specialize (Hv (S i) ltac:(lia))]; cbn in *; rewrite Nat.add_succ_r in *; auto. }
      apply (G es vs 0); auto.
    Qed.
  End Sem.
End Step.
Lemma oZ_ok a b : oZ_eqb a b = true <-> a = b.
Proof. unfold oZ_eqb, opt_eqb. destruct a, b; try (split; congruence). rewrite Z.eqb_eq. split; congruence. Qed.
Lemma ent_ok a b : ent_eqb a b = true <-> a = b.
Proof. destruct a as [i x], b as [j y]. unfold ent_eqb. cbn. rewrite andb_true_iff, Nat.eqb_eq, oZ_ok. split; [intros [-> ->]; reflexivity | intros [= -> ->]; auto]. Qed.
Lemma map_fst_combine A B (a : list A) : forall b : list B, List.length b = List.length a -> map fst (combine a b) = a.
Proof. induction a as [|x a IH]; intros [|y b] H; cbn in *; try discriminate; auto. rewrite IH; auto. Qed.
Lemma filter_seq_sorted (f : nat -> bool) n : forall a, StronglySorted le (filter f (seq a n)).
Proof.
  induction n as [|n IH]; intros a; [constructor|]. cbn [seq filter]. assert (G : Forall (le a) (filter f (seq (S a) n))) by (apply Forall_forall; intros x Hx; apply filter_In in Hx; destruct Hx as [Hx _]; apply in_seq in Hx; lia).
  destruct (f a); [constructor; auto | apply IH].
Qed.
Lemma repeat_app_ A (x : A) a b : repeat x a ++ repeat x b = repeat x (a + b).
Proof. symmetry. apply repeat_app. Qed.
Lemma typed_id_n k : typed (id (nn k)) (repeat a_n k) (repeat a_n k).
Proof. rewrite <- nn_repeat. repeat split. Qed.
Section One.
  Variables (es : list ent) (big sd : diagram) (boxes nouns : list box) (nids : list ent).
  Hypotheses (N : NoDup es) (T : typed big (repeat a_n (List.length es)) (repeat a_n (List.length es))) (Fit : fits (sd, nouns, nids)).
  Let F := news ent_eqb es (combine nids nouns).
  Let es' := es ++ map fst F.
  Lemma one_sub e : In e nids -> In e es'.
  Proof. intros H. destruct Fit as (_ & L & _). apply (news_all ent_ok). now rewrite map_fst_combine. Qed.
  Lemma circ_step_ok : es' <> [] -> exists c, circ_step (big, dict_of es, boxes) (sd, nouns, nids) = Ok (c, dict_of es', boxes ++ map snd F) /\ typed c (repeat a_n (List.length es')) (repeat a_n (List.length es')) /\
    forall V (bsem : box -> list V -> list V) merge, reading bsem merge -> forall vs new, List.length vs = List.length es -> List.length new = List.length F ->
      let vs' := drun bsem big vs ++ new in drun bsem c (vs ++ new) = scatter ent_eqb merge es' vs' nids (drun bsem sd (gather ent_eqb es' vs' nids)).
  Proof.
    intros Ne. destruct Fit as (Ts & Ln & Bx). destruct (assign_all_ok ent_ok boxes [] N Ln) as (m & Em & Dm & Nm & Bm & _ & Im & Am). fold F in Em, Dm, Nm, Bm, Im, Am. fold es' in Dm, Im, Am.
    assert (N' : NoDup es') by (apply (news_nodup ent_ok), N).
    assert (Sub : forall e, In e (map fst F) -> In e nids). { intros e He. apply in_map_iff in He. destruct He as ([e0 b] & <- & He). apply (news_sub (eqk := ent_eqb)) in He. cbn. now apply in_combine_l in He. }
    assert (Ew := anc_eq ent_ok N' Sub). cbv zeta in Ew. fold es' in Ew.
    assert (Ids : all_ids m = wires ent_eqb es' nids). { unfold all_ids. rewrite Am, Im, sort_nat_id by apply filter_seq_sorted. exact Ew. }
    assert (Fl := wires_lt ent_ok one_sub). assert (Al := fun w => @wires_all _ ent_eqb es' nids w).
    assert (Kp : 0 < List.length es') by (destruct es'; [congruence | cbn; lia]).
    destruct (matcher_ok Fl Al) as (permute & matcher & Ep & Ema & Tm & Sem).
    set (ids := wires ent_eqb es' nids) in *. set (K := List.length es') in *.
    assert (LK : List.length es + List.length F = K) by (unfold K, es'; now rewrite app_length, map_length).
    set (anc := filter (fun v => negb (existsb (Nat.eqb v) (map (fun e => index_of ent_eqb e es') nids))) (seq 0 (List.length es))) in *.
    assert (Li : List.length ids = List.length anc + List.length nids) by (rewrite <- Ew; now rewrite app_length, map_length).
    assert (T1 : typed (tensor big (id (nn (m_new m)))) (repeat a_n K) (repeat a_n K)). { rewrite Nm. assert (Y := typed_tensor T (typed_id_n (List.length F))). rewrite repeat_app_ in Y. now rewrite LK in Y. }
    destruct (typed_then T1 Tm) as (a & Ea & Ta).
    assert (T2 : typed (tensor (id (nn (List.length (m_anc m)))) sd) (repeat a_n (List.length ids)) (repeat a_n (List.length ids))). { rewrite Am. assert (Y := typed_tensor (typed_id_n (List.length anc)) Ts). rewrite repeat_app_ in Y. now rewrite <- Li in Y. }
    destruct (typed_then Ta T2) as (b & Eb & Tb). destruct (typed_then Tb (typed_dagger Tm)) as (c & Ec & Tc).
    exists c. split; [|split; [exact Tc|]].
    - unfold circ_step. rewrite Em. cbn [bind]. cbv zeta. rewrite Ids. fold ids. rewrite perm_list_ok. cbn [bind]. destruct ids as [|i0 ids0] eqn:Eids; [exfalso; exact (in_nil (Al 0 Kp))|]. rewrite <- Eids in *.
      change (map (fun w => if occurrences w ids =? 1 then id NOUN else to_diag (Spider a_n 1 (occurrences w ids)))) with (map (leg ids)). rewrite (list_max_top Fl Al Kp). fold (spiders ids K). rewrite Ep. cbn [bind]. rewrite Ema. cbn [bind]. rewrite Ea. cbn [bind]. rewrite Eb. cbn [bind]. rewrite Ec. cbn [bind]. now rewrite Dm, Bm.
    - intros V bsem merge R vs new Lv Lw vs'. destruct (Sem V bsem merge R) as (S1 & S2). rewrite (drun_then _ _ Ec), (drun_then _ _ Eb), (drun_then _ _ Ea).
      assert (Lbv : List.length (drun bsem big vs) = List.length es). { destruct T as (W & D & C). rewrite (drun_len R W); rewrite ?C, ?D, repeat_length; auto. }
      assert (E1 : drun bsem (tensor big (id (nn (m_new m)))) (vs ++ new) = vs'). { destruct T as (W & D & C). rewrite (drun_tensor R W (wf_id _)); [now rewrite drun_id | now rewrite D, repeat_length |]. cbn. now rewrite nn_len, Nm. }
      rewrite E1. assert (L' : List.length vs' = K) by (unfold vs'; rewrite app_length; lia).
      destruct vs' as [|d vs0] eqn:Ev; [cbn in L'; lia|]. rewrite <- Ev in *. rewrite (S1 d) by exact L'.
      rewrite <- Ew, map_app.
      assert (Eg : map (fun w => nth w vs' d) (map (fun e => index_of ent_eqb e es') nids) = gather ent_eqb es' vs' nids) by (rewrite map_map; symmetry; apply (gather_eq ent_ok); [exact L' | exact one_sub]). rewrite Eg.
      assert (Lg : List.length (gather ent_eqb es' vs' nids) = List.length nids) by (rewrite <- Eg; now rewrite !map_length).
      destruct Ts as (Ws & Ds & Cs). rewrite Am. rewrite (drun_tensor R (wf_id _) Ws); [| now rewrite map_length; cbn; rewrite nn_len | now rewrite Ds, repeat_length].
      rewrite drun_id. assert (Lo : List.length (drun bsem sd (gather ent_eqb es' vs' nids)) = List.length nids) by (rewrite (drun_len R Ws); rewrite ?Cs, ?Ds, repeat_length; auto).
      rewrite S2 by (rewrite app_length, map_length, Lo, Li; reflexivity).
      rewrite <- (scatter_eq ent_ok R d N' L' one_sub Lo).
      assert (Ea' : filter (fun v => negb (existsb (Nat.eqb v) (map (fun e => index_of ent_eqb e es') nids))) (seq 0 (List.length es')) = anc) by (apply (app_inv_tail (map (fun e => index_of ent_eqb e es') nids)); symmetry; exact Ew).
      rewrite Ea', Ew. reflexivity.
  Qed.
  Lemma circ_step_empty : es' = [] -> circ_step (big, dict_of es, boxes) (sd, nouns, nids) = Err ValueError.
  Proof.
    intros E0. assert (Hn : nids = []) by (enough (H : forall e, ~ In e nids) by (destruct nids as [|e l]; [reflexivity | exfalso; apply (H e); now left]); intros e He; apply one_sub in He; rewrite E0 in He; exact He).
    assert (He : es = []) by (unfold es' in E0; now apply app_eq_nil in E0).
    unfold circ_step. rewrite He, Hn. reflexivity.
  Qed.
End One.
