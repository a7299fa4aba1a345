(** Sentences as sandwiches (C71, lemmas only). *)
From Coq Require Import Permutation Sorted.
From Verif Require Import PyBase PyFacts TyModel TyFacts DiagModel DiagSpec DiagFacts DiagRot DiagPerm MiscModel MiscFacts TreeModel TreeSpec TreeFacts CircModel CircSpec CircPerm CircRun CircMatch CircStep CircFrames.
Close Scope string_scope. Set Implicit Arguments. Unset Strict Implicit.

(** ** permutations without swaps *)
Lemma perm_same_steps n d l w o : o + List.length l <= n -> l = seq o (List.length l) -> List.length w = n -> skipn o w = seq o (n - o) -> exists w', foldM (perm_step (seq 0 n)) l (d, w) = Ok (d, w').
Proof.
  revert w o. induction l as [|x l IH]; intros w o H E L S; [eexists; reflexivity|]. cbn [List.length seq] in E. injection E as -> E. cbn [List.length] in H. cbn [foldM]. unfold perm_step at 1.
  assert (E1 : nth_error (seq 0 n) o = Some o) by (rewrite nth_error_nth' with (d := 0) by (rewrite seq_length; lia); rewrite seq_nth by lia; reflexivity). rewrite E1.
  assert (S' : skipn o w = o :: seq (Datatypes.S o) (n - Datatypes.S o)) by (rewrite S; replace (n - o) with (Datatypes.S (n - Datatypes.S o)) by lia; reflexivity).
  assert (E2 : nth_error w o = Some o). { rewrite <- (firstn_skipn o w), S'. rewrite nth_error_app2 by (rewrite firstn_length; lia). rewrite firstn_length, Nat.min_l, Nat.sub_diag by lia. reflexivity. }
  rewrite E2, Nat.ltb_irrefl, Nat.sub_diag. cbn [seq rev foldM bind]. apply (IH _ (Datatypes.S o)); [lia | exact E | unfold bump; rewrite app_length, map_length, firstn_length, skipn_length; lia |].
  unfold bump. change (Datatypes.S o) with (1 + o). rewrite Nat.add_comm, skipn_add. rewrite skipn_exact by (rewrite map_length, firstn_length; lia). rewrite S'. cbn [skipn]. now rewrite Nat.add_comm.
Qed.
Lemma perm_valid_seq n : perm_valid (seq 0 n) n = true.
Proof.
  unfold perm_valid. rewrite seq_length, Nat.eqb_refl. cbn [andb]. assert (forallb (fun x => existsb (Nat.eqb x) (seq 0 n)) (seq 0 n) = true) as ->; [|reflexivity]. apply forallb_forall. intros x Hx. apply existsb_exists. exists x. split; [exact Hx | apply Nat.eqb_refl].
Qed.
Lemma perm_same n : permutation (nn n) (seq 0 n) = Ok (id (nn n)).
Proof.
  unfold permutation. rewrite nn_len, perm_valid_seq. cbn [negb]. destruct (@perm_same_steps n (id (nn n)) (seq 0 (n - 1)) (seq 0 n) 0) as (w' & ->); [rewrite seq_length; lia | now rewrite seq_length | apply seq_length | cbn; now rewrite Nat.sub_0_r | reflexivity].
Qed.
Lemma perm_layers n p d : Permutation p (seq 0 n) -> permutation (nn n) p = Ok d -> layers d = [] <-> p = seq 0 n.
Proof.
  intros P E. split; [|intros ->; rewrite perm_same in E; injection E as <-; reflexivity]. intros L. destruct (nperm_ok P) as (d' & E' & _ & R). rewrite E in E'. injection E' as <-. specialize (R nat 0 (seq 0 n) (seq_length _ _)). unfold run in R. rewrite L in R. injection R as R. rewrite R.
  clear -P. assert (B : forall k, In k p -> k < n) by (intros k Hk; apply (Permutation_in _ P) in Hk; apply in_seq in Hk; lia). clear P. induction p as [|k p IH]; [reflexivity|]. cbn [map]. rewrite seq_nth by (apply B; now left). f_equal. apply IH. intros; apply B; now right.
Qed.
Lemma below_seq n w : w <= n -> below w (seq 0 n) = w.
Proof.
  intros H. unfold below. replace n with (w + (n - w)) by lia. rewrite seq_app, filter_app, app_length. cbn [Nat.add].
  assert (A : filter (fun x => x <? w) (seq 0 w) = seq 0 w). { assert (G : forall l, (forall x, In x l -> x < w) -> filter (fun x => x <? w) l = l). { induction l as [|x l IH]; intros Hl; [reflexivity|]. cbn [filter]. rewrite (proj2 (Nat.ltb_lt _ _)) by (apply Hl; now left). f_equal. apply IH. intros; apply Hl; now right. } apply G. intros x Hx. apply in_seq in Hx. lia. }
  assert (B : filter (fun x => x <? w) (seq w (n - w)) = []). { assert (G : forall l, (forall x, In x l -> w <= x) -> filter (fun x => x <? w) l = []). { induction l as [|x l IH]; intros Hl; [reflexivity|]. cbn [filter]. rewrite (proj2 (Nat.ltb_ge _ _)) by (apply Hl; now left). apply IH. intros; apply Hl; now right. } apply G. intros x Hx. apply in_seq in Hx. lia. }
  rewrite A, B, seq_length. cbn. lia.
Qed.
Lemma ranks_same ids n : Permutation ids (seq 0 n) -> ranks ids [] ids = ids.
Proof.
  intros P. assert (N : NoDup ids) by (apply (Permutation_NoDup (Permutation_sym P)), seq_NoDup). assert (B : forall w, In w ids -> below w ids = w). { intros w Hw. unfold below. rewrite (filter_len_perm _ P). apply below_seq. apply (Permutation_in _ P) in Hw. apply in_seq in Hw. lia. }
  assert (G : forall l pre, NoDup (pre ++ l) -> (forall w, In w l -> below w ids = w) -> ranks ids pre l = l); [|apply (G ids [] N B)]. clear N B P. induction l as [|w l IH]; intros pre N B; [reflexivity|]. cbn [ranks]. rewrite B by now left. rewrite occ_zero, Nat.add_0_r; [f_equal; apply IH; [now rewrite <- app_assoc | intros; apply B; now right]|].
  apply NoDup_remove_2 in N. intros I. apply N, in_or_app. now left.
Qed.
(** ** one child *)
Section Child.
  Variables (K : Type) (eqk : K -> K -> bool).
  Hypothesis eqk_ok : forall a b, eqk a b = true <-> a = b.
  Notation index_of := (index_of eqk). Notation wires := (wires eqk).
  Variables (es nids : list K).
  Hypotheses (N : NoDup es) (Nn : NoDup nids) (Sub : forall e, In e nids -> In e es).
  Lemma seq_index : seq 0 (List.length es) = map (fun e => index_of e es) es.
  Proof.
    destruct es as [|d es0] eqn:E; [reflexivity|]. rewrite <- E in *. apply nth_ext with (d := 0) (d' := index_of d es); [now rewrite map_length, seq_length|]. rewrite seq_length. intros i Hi. rewrite seq_nth by exact Hi. rewrite (map_nth (fun e => index_of e es) es d i). now rewrite (index_nth eqk_ok).
  Qed.
  Lemma index_inj a b : In a es -> In b es -> index_of a es = index_of b es -> a = b.
  Proof. intros Ha Hb E. rewrite <- (nth_index eqk_ok a Ha), <- (nth_index eqk_ok a Hb). now rewrite E. Qed.
  Lemma wires_index : wires es nids = map (fun e => index_of e es) (filter (fun e => negb (mem eqk e nids)) es ++ nids).
  Proof.
    unfold CircMatch.wires. rewrite map_app. f_equal. rewrite seq_index. assert (G : forall l, (forall e, In e l -> In e es) -> filter (fun v => negb (existsb (Nat.eqb v) (map (fun e => index_of e es) nids))) (map (fun e => index_of e es) l) = map (fun e => index_of e es) (filter (fun e => negb (mem eqk e nids)) l)); [|now apply G].
    induction l as [|e l IH]; intros H; [reflexivity|]. cbn [map filter]. assert (E : existsb (Nat.eqb (index_of e es)) (map (fun e => index_of e es) nids) = mem eqk e nids).
    { destruct (mem eqk e nids) eqn:M.
      - apply (mem_in eqk_ok) in M. apply existsb_exists. exists (index_of e es). split; [apply in_map_iff; eauto | apply Nat.eqb_refl].
      - apply (mem_notin eqk_ok) in M. destruct (existsb _ _) eqn:X; [|reflexivity]. exfalso. apply existsb_exists in X. destruct X as (v & Hv & <-%Nat.eqb_eq). apply in_map_iff in Hv. destruct Hv as (e' & E' & He'). apply M. rewrite <- (index_inj (Sub He') (H e (or_introl eq_refl)) E'). exact He'. }
    rewrite E, IH by (intros; apply H; now right). now destruct (mem eqk e nids).
  Qed.
  Lemma arranged_nodup : NoDup (filter (fun e => negb (mem eqk e nids)) es ++ nids).
  Proof.
    assert (G : forall l, NoDup l -> NoDup (filter (fun e => negb (mem eqk e nids)) l ++ nids)); [|auto]. induction 1 as [|x l Hx D IH]; [exact Nn|]. cbn [filter]. destruct (mem eqk x nids) eqn:M; cbn [negb]; [exact IH|]. cbn [app]. constructor; [|exact IH]. intros I. apply in_app_or in I. destruct I as [I | I]; [apply filter_In in I; tauto|]. apply (mem_notin eqk_ok) in M. tauto.
  Qed.
  Lemma arranged_in e : In e (filter (fun e => negb (mem eqk e nids)) es ++ nids) -> In e es.
  Proof. intros I. apply in_app_or in I. destruct I as [I | I]; [apply filter_In in I; tauto | auto]. Qed.
  Lemma map_inj_nodup A B (f : A -> B) l : NoDup l -> (forall a b, In a l -> In b l -> f a = f b -> a = b) -> NoDup (map f l).
  Proof. induction 1 as [|x l Hx D IH]; intros H; [constructor|]. cbn. constructor; [|apply IH; intros; apply H; auto; now right]. intros I. apply in_map_iff in I. destruct I as (y & E & Hy). apply Hx. rewrite <- (H y x); auto; [now right | now left]. Qed.
  Lemma wires_perm : Permutation (wires es nids) (seq 0 (List.length es)).
  Proof.
    apply NoDup_Permutation; [rewrite wires_index; apply map_inj_nodup; [apply arranged_nodup | intros a b Ha Hb; apply index_inj; now apply arranged_in] | apply seq_NoDup|]. intros w. rewrite in_seq. split; [intros I; assert (F := wires_lt eqk_ok Sub); rewrite Forall_forall in F; specialize (F w I); lia | intros H; apply wires_all; lia].
  Qed.
  Lemma wires_seq : wires es nids = seq 0 (List.length es) <-> filter (fun e => negb (mem eqk e nids)) es ++ nids = es.
  Proof.
    rewrite wires_index, seq_index. split; [|intros ->; reflexivity]. intros E. destruct es as [|d es0] eqn:Ees; [destruct nids as [|e l]; [reflexivity | exfalso; exact (Sub (or_introl eq_refl))]|]. rewrite <- Ees in *.
    apply (f_equal (map (fun w => nth w es d))) in E. rewrite !map_map in E. assert (G : forall l, (forall e, In e l -> In e es) -> map (fun e => nth (index_of e es) es d) l = l). { induction l as [|e l IH]; intros H; [reflexivity|]. cbn. rewrite (nth_index eqk_ok) by (apply H; now left). f_equal. apply IH. intros; apply H; now right. }
    rewrite (G _ arranged_in), (G es) in E by auto. exact E.
  Qed.
End Child.
Lemma list_eqb_ok A (f : A -> A -> bool) l : (forall a b, f a b = true <-> a = b) -> forall m, list_eqb f l m = true <-> l = m.
Proof. intros H. induction l as [|x l IH]; intros [|y m]; cbn; try (split; congruence). rewrite andb_true_iff, H, IH. split; [intros [-> ->]; reflexivity | intros [= -> ->]; auto]. Qed.
Lemma has_layers_app d ls ms : layers d = ls ++ ms -> has_layers d = negb (null ls) || negb (null ms).
Proof. unfold has_layers. intros ->. now destruct ls. Qed.
Lemma null_map A B (f : A -> B) l : null (map f l) = null l.
Proof. now destruct l. Qed.
Lemma null_rev A (l : list A) : null (rev l) = null l.
Proof. destruct l as [|x l]; [reflexivity|]. cbn. now destruct (rev l). Qed.
Section SandChild.
  Variables (es : list (option Z)) (subs : list diagram) (nouns : list box) (cur : option Z) (typ : ty) (cd : diagram) (cnouns : list box) (cinds : list (option Z)) (cand : option Z).
  Hypotheses (N : NoDup es) (T : typed cd (repeat a_n (List.length cinds)) (repeat a_n (List.length cinds))) (Nc : NoDup cinds) (Lc : List.length cnouns = List.length cinds).
  Let F := news oZ_eqb es (combine cinds cnouns).
  Let es' := es ++ map fst F.
  Lemma sand_child_ok : exists y, sand_child (subs, nouns, es, dict_of es, cur) typ (cd, cnouns, cinds, cand) = Ok (subs ++ [y], nouns ++ map snd F, es', dict_of es', if ty_eqb typ NOUN then cand else cur) /\
    typed y (repeat a_n (List.length es')) (repeat a_n (List.length es')) /\ has_layers y = has_layers cd || negb (in_place oZ_eqb es' cinds) /\
    forall V (bsem : box -> list V -> list V) merge, reading bsem merge -> forall vs, List.length vs = List.length es' -> drun bsem y vs = stir oZ_eqb bsem merge es' vs (cd, cinds).
  Proof.
    destruct (assign_all_ok oZ_ok nouns es N Lc) as (m & Em & Dm & Nm & Bm & Im0 & Im & Am). fold F in Em, Dm, Nm, Bm, Im0, Im, Am. fold es' in Dm, Im0, Im, Am.
    assert (N' : NoDup es') by (apply (news_nodup oZ_ok), N).
    assert (SubF : forall e, In e (map fst F) -> In e cinds). { intros e He. apply in_map_iff in He. destruct He as ([e0 b] & <- & He). apply (news_sub (eqk := oZ_eqb)) in He. cbn. now apply in_combine_l in He. }
    assert (Sub : forall e, In e cinds -> In e es') by (intros e H; apply (news_all oZ_ok); now rewrite map_fst_combine).
    assert (Ew := anc_eq oZ_ok N' SubF). cbv zeta in Ew. fold es' in Ew.
    assert (Ids : all_ids m = wires oZ_eqb es' cinds). { unfold all_ids. rewrite Am, Im, sort_nat_id by apply filter_seq_sorted. exact Ew. }
    assert (P := wires_perm oZ_ok N' Nc Sub). assert (Wq := wires_seq oZ_ok N' Nc Sub). assert (Fl := wires_lt oZ_ok Sub).
    set (ids := wires oZ_eqb es' cinds) in *. set (K := List.length es') in *.
    assert (Li : List.length ids = K) by (rewrite (Permutation_length P); apply seq_length).
    set (anc := filter (fun v => negb (existsb (Nat.eqb v) (map (fun e => index_of oZ_eqb e es') cinds))) (seq 0 (List.length es))) in *.
    assert (La : List.length anc + List.length cinds = K) by (rewrite <- Li, <- Ew; now rewrite app_length, map_length).
    assert (Pn := P). rewrite <- Li in Pn. destruct (nperm_ok Pn) as (permute & Ep & Tp & Rp). assert (Pl := perm_layers Pn Ep). rewrite Li in Pn, Ep, Tp, Rp, Pl.
    assert (T2 : typed (tensor (id (nn (List.length (m_anc m)))) cd) (repeat a_n K) (repeat a_n K)). { rewrite Am. assert (Y := typed_tensor (typed_id_n (List.length anc)) T). rewrite repeat_app_ in Y. now rewrite La in Y. }
    destruct (typed_then Tp T2) as (x & Ex & Tx). destruct (typed_then Tx (typed_dagger Tp)) as (y & Ey & Ty). exists y. split; [|split; [exact Ty|split]].
    - unfold sand_child. rewrite Em. cbn [bind]. cbv zeta. rewrite Ids. fold ids. rewrite perm_list_ok, (ranks_same P). cbn [bind]. rewrite Li, Ep. cbn [bind]. rewrite Ex. cbn [bind]. rewrite Ey. cbn [bind]. now rewrite Dm, Bm, Im0.
    - apply d_then_inv in Ex, Ey. destruct Ex as [_ ->], Ey as [_ ->]. rewrite tensor_eq. cbn [layers dom cod id map app]. rewrite (d_dagger_eq (proj1 Tp)). cbn [layers]. unfold has_layers. cbn [layers].
      assert (Q : null (layers permute) = in_place oZ_eqb es' cinds). { unfold in_place. destruct (list_eqb _ _ _) eqn:E; [apply (list_eqb_ok _ oZ_ok) in E; apply Wq, Pl in E; now rewrite E|]. destruct (layers permute) eqn:E2; [|reflexivity]. exfalso. assert (X := proj1 Wq (proj1 Pl eq_refl)). apply (list_eqb_ok _ oZ_ok) in X. congruence. }
      rewrite <- Q. destruct (layers permute) as [|l0 ls] eqn:E1; [|cbn; now rewrite orb_true_r]. cbn [app rev map null negb]. rewrite app_nil_r, orb_false_r. now rewrite null_map.
    - intros V bsem merge R vs Lv. rewrite (drun_then _ _ Ey), (drun_then _ _ Ex).
      destruct vs as [|d vs0] eqn:Evs.
      + assert (K0 : K = 0) by (symmetry; exact Lv). assert (C0 : cinds = []) by (apply length_zero_iff_nil; lia).
        unfold stir, scatter. cbn [snd]. rewrite combine_nil. cbn [map]. apply length_zero_iff_nil. rewrite <- (drun_then _ _ Ex), <- (drun_then _ _ Ey). destruct Ty as (Wy & Dy & Cy). rewrite (drun_len R Wy); rewrite ?Cy, ?Dy, repeat_length; cbn; lia.
      + rewrite <- Evs in *. rewrite (run_drun R (Rp V d vs Lv)). rewrite <- Ew, map_app.
        assert (Eg : map (fun w => nth w vs d) (map (fun e => index_of oZ_eqb e es') cinds) = gather oZ_eqb es' vs cinds) by (rewrite map_map; symmetry; apply (gather_eq oZ_ok); [exact Lv | exact Sub]). rewrite Eg.
        assert (Lg : List.length (gather oZ_eqb es' vs cinds) = List.length cinds) by (rewrite <- Eg; now rewrite !map_length).
        destruct T as (Ws & Ds & Cs). rewrite Am. rewrite (drun_tensor R (wf_id _) Ws); [| now rewrite map_length; cbn; rewrite nn_len | now rewrite Ds, repeat_length].
        rewrite drun_id. assert (Lo : List.length (drun bsem cd (gather oZ_eqb es' vs cinds)) = List.length cinds) by (rewrite (drun_len R Ws); rewrite ?Cs, ?Ds, repeat_length; auto).
        set (o := map (fun w => nth w vs d) anc ++ drun bsem cd (gather oZ_eqb es' vs cinds)).
        assert (Lo' : List.length o = List.length ids) by (unfold o; rewrite app_length, map_length, Lo; lia).
        assert (B : List.length (blocks (picked ids o) K) = K) by (rewrite (blocks_len (ids := ids)); [rewrite (below_all Fl); exact Li | intros; now apply picked_len]).
        assert (E : run permute (blocks (picked ids o) K) = Some o). { rewrite (Rp _ d _ B). f_equal. assert (Y := @ranks_blocks V d ids K o Lo' Fl). rewrite (ranks_same P) in Y. exact Y. }
        rewrite (run_drun R (run_dagger (proj1 Tp) E)). unfold stir. cbn [fst snd]. rewrite <- (scatter_eq oZ_ok R d N' Lv Sub Lo).
        assert (Ea' : filter (fun v => negb (existsb (Nat.eqb v) (map (fun e => index_of oZ_eqb e es') cinds))) (seq 0 (List.length es')) = anc) by (apply (app_inv_tail (map (fun e => index_of oZ_eqb e es') cinds)); symmetry; exact Ew).
        cbv zeta. rewrite Ea', Ew. fold o. unfold blocks. fold K. assert (O1 : forall w, w < K -> List.length (picked ids o w) = 1). { intros w Hw. rewrite picked_len by exact Lo'. unfold occurrences. rewrite (filter_len_perm _ P). clear -Hw. assert (G : forall n a, a <= w < a + n -> List.length (filter (Nat.eqb w) (seq a n)) = 1).
            { induction n as [|n IH]; intros a Ha; [lia|]. cbn [seq filter]. destruct (Nat.eqb_spec w a) as [->|]; [|apply IH; lia]. cbn [List.length]. f_equal. apply (occ_zero (w := a)). intros I. apply in_seq in I. lia. }
            apply G. lia. }
        assert (G : forall l, (forall w, In w l -> w < K) -> List.concat (map (picked ids o) l) = map (fun w => merge (picked ids o w)) l); [|apply G; intros w Hw; apply in_seq in Hw; lia]. induction l as [|w l IH]; intros H; [reflexivity|]. cbn [map List.concat]. rewrite IH by (intros; apply H; now right). specialize (O1 w (H w (or_introl eq_refl))). destruct (picked ids o w) as [|z [|]]; try discriminate. cbn [app]. now rewrite (merge_one R).
  Qed.
End SandChild.
