(** Spiders of compound types, slicing, create_pregroup_diagram (lemmas only). *)
From Coq Require Import Sorting.Sorted.
From Verif Require Import PyBase PyFacts TyModel TyFacts DiagModel DiagSpec DiagFacts DiagRot DiagPerm DiagCups.
Set Implicit Arguments. Unset Strict Implicit.

(** ** spiders *)
Lemma range_fuel step i : i < step -> forall m j f, m <= f ->
  range_step_fuel f (i + j * step) (step * (j + m)) step = map (fun k => i + (j + k) * step) (seq 0 m).
Proof.
  intro Hi. induction m as [|m IH]; intros j f Hf.
  - destruct f; cbn [range_step_fuel seq map]; auto. destruct (Nat.ltb_spec (i + j * step) (step * (j + 0))); auto. nia.
  - destruct f as [|f]; [lia|]. cbn [range_step_fuel seq map].
    destruct (Nat.ltb_spec (i + j * step) (step * (j + S m))); [|nia].
    rewrite Nat.add_0_r. f_equal. rewrite <- seq_shift, map_map.
    replace (i + j * step + step) with (i + S j * step) by lia.
    replace (j + S m) with (S j + m) by lia. rewrite IH by lia. apply map_ext. intro k. lia.
Qed.
Lemma range_step_eq step i m : i < step -> range_step i (step * m) step = map (fun k => i + k * step) (seq 0 m).
Proof.
  intro Hi. unfold range_step. replace i with (i + 0 * step) at 1 by lia.
  apply (range_fuel Hi 0). nia.
Qed.

Definition grid (a b : nat) : list nat := flat_map (fun i => map (fun k => i + k * a) (seq 0 b)) (seq 0 a).

Lemma grid_perm a b : Permutation (grid a b) (seq 0 (a * b)).
Proof.
  symmetry. apply NoDup_Permutation_bis.
  - apply seq_NoDup.
  - rewrite seq_length. unfold grid. rewrite flat_map_concat_map.
    assert (H : forall l, List.length (List.concat (map (fun i => map (fun k => i + k * a) (seq 0 b)) l)) = List.length l * b).
    { induction l; cbn; auto. rewrite app_length, map_length, seq_length, IHl. lia. }
    rewrite H, seq_length. lia.
  - intros x Hx. apply in_seq in Hx. unfold grid. apply in_flat_map.
    assert (a <> 0) by nia. exists (x mod a). split.
    + apply in_seq. pose proof (Nat.mod_upper_bound x a H). lia.
    + apply in_map_iff. exists (x / a). split.
      * rewrite (Nat.div_mod x a H) at 3. lia.
      * apply in_seq. split; [lia|]. cbn. apply Nat.div_lt_upper_bound; lia.
Qed.

Lemma nth_pow t n i k (da : atom) : i < List.length t -> k < n -> nth (i + k * List.length t) (ty_pow t n) da = nth i t da.
Proof.
  revert k; induction n as [|n IH]; intros k Hi Hk; [lia|]. cbn [ty_pow].
  destruct k as [|k].
  - rewrite Nat.add_0_r. now apply app_nth1.
  - cbn [Nat.mul]. replace (i + (List.length t + k * List.length t)) with (List.length t + (i + k * List.length t)) by lia.
    rewrite app_nth2_plus. apply IH; lia.
Qed.
Lemma map_const A B (f : A -> B) b l : (forall x, In x l -> f x = b) -> map f l = repeat b (List.length l).
Proof. induction l as [|x l IH]; cbn; intro H; auto. rewrite H, IH by auto. reflexivity. Qed.

Lemma flat_map_seq_nth A B (f : A -> list B) d l : flat_map (fun i => f (nth i l d)) (seq 0 (List.length l)) = flat_map f l.
Proof.
  rewrite !flat_map_concat_map. f_equal.
  rewrite <- (map_map (fun i => nth i l d) f). f_equal. apply map_nth_seq.
Qed.

Lemma pick_grid_in t n da : map (fun j => nth j (ty_pow t n) da) (grid (List.length t) n) = flat_map (fun a => repeat a n) t.
Proof.
  unfold grid. rewrite <- (flat_map_seq_nth (fun a => repeat a n) da t).
  rewrite !flat_map_concat_map, concat_map, map_map. f_equal. apply map_ext_in.
  intros i Hi. apply in_seq in Hi. rewrite map_map.
  etransitivity; [apply (@map_const _ _ _ (nth i t da))|now rewrite seq_length].
  intros k Hk. apply in_seq in Hk. apply nth_pow; lia.
Qed.

Lemma nth_repeat_lt A (a d : A) m i : i < m -> nth i (repeat a m) d = a.
Proof. revert i; induction m; intros [|i] H; cbn; auto; try lia. apply IHm; lia. Qed.
Lemma nth_rep t m i k (da : atom) : i < m -> nth (i + k * m) (flat_map (fun a => repeat a m) t) da = nth k t da.
Proof.
  revert k; induction t as [|a t IH]; intros k Hi; cbn [flat_map].
  - destruct k; destruct (i + _); reflexivity.
  - destruct k as [|k]; cbn [nth].
    + rewrite Nat.add_0_r, app_nth1 by (rewrite repeat_length; lia). apply nth_repeat_lt; auto.
    + cbn [Nat.mul]. replace (i + (m + k * m)) with (List.length (repeat a m) + (i + k * m)) by (rewrite repeat_length; lia).
      rewrite app_nth2_plus. apply IH; auto.
Qed.
Lemma flat_map_const A (l : list nat) (t : list A) : flat_map (fun _ => t) l = List.concat (repeat t (List.length l)).
Proof. induction l; cbn; congruence. Qed.
Lemma pick_grid_out t m da : map (fun j => nth j (flat_map (fun a => repeat a m) t) da) (grid m (List.length t)) = ty_pow t m.
Proof.
  unfold grid. rewrite (flat_map_concat_map _ (seq 0 m)), concat_map, map_map.
  rewrite <- concat_repeat_pow.
  f_equal. etransitivity; [apply (@map_const _ _ _ t)|now rewrite seq_length]. intros i Hi. apply in_seq in Hi. rewrite map_map.
  etransitivity; [|apply (map_nth_seq da t)]. apply map_ext. intro k. apply nth_rep. lia.
Qed.

Lemma spider_typed t n m : exists d, spider t n m = Ok d /\ typed d (ty_pow t n) (ty_pow t m).
Proof.
  assert (Gen : exists d,
     (do top <- permutation (ty_pow t n)
                  (flat_map (fun i => range_step i (List.length t * n) (List.length t)) (seq 0 (List.length t)));
      let mid := tensor_list (id []) (map (fun a => to_diag (Spider a n m)) t) in
      do bot <- permuted mid
                  (flat_map (fun i => range_step i (List.length t * m) m) (seq 0 m));
      d_then top bot) = Ok d /\ typed d (ty_pow t n) (ty_pow t m)).
  { assert (E1 : flat_map (fun i => range_step i (List.length t * n) (List.length t)) (seq 0 (List.length t))
                 = grid (List.length t) n).
    { unfold grid. rewrite !flat_map_concat_map. f_equal. apply map_ext_in. intros i Hi. apply in_seq in Hi.
      apply range_step_eq; lia. }
    assert (E2 : flat_map (fun i => range_step i (List.length t * m) m) (seq 0 m) = grid m (List.length t)).
    { unfold grid. rewrite !flat_map_concat_map. f_equal. apply map_ext_in. intros i Hi. apply in_seq in Hi.
      rewrite Nat.mul_comm. apply range_step_eq; lia. }
    rewrite E1, E2.
    destruct (@permutation_route (ty_pow t n) (grid (List.length t) n)) as (top & -> & Wt & Dt & Ct & _).
    { rewrite ty_pow_length, Nat.mul_comm. apply grid_perm. }
    cbn [bind]. cbv zeta. rewrite pick_grid_in in Ct.
    set (mid := tensor_list (id []) (map (fun a => to_diag (Spider a n m)) t)).
    assert (Tm : typed mid (flat_map (fun a => repeat a n) t) (flat_map (fun a => repeat a m) t)).
    { split; [|split].
      - apply wf_tensor_list; [apply wf_id|]. apply Forall_map, Forall_forall. intros a _. now apply wf_to_diag.
      - unfold mid. rewrite dom_tensor_list, map_map, flat_map_concat_map. reflexivity.
      - unfold mid. rewrite cod_tensor_list, map_map, flat_map_concat_map. reflexivity. }
    destruct Tm as (Wm & Dm & Cm). unfold permuted. rewrite Cm.
    destruct (@permutation_route (flat_map (fun a => repeat a m) t) (grid m (List.length t))) as (bot & -> & Wb & Db & Cb & _).
    { replace (List.length (flat_map (fun a => repeat a m) t)) with (m * List.length t); [apply grid_perm|].
      clear. induction t; cbn; [lia|]. rewrite app_length, repeat_length, <- IHt. lia. }
    rewrite pick_grid_out in Cb. cbn [bind].
    destruct (@typed_then mid bot (flat_map (fun a => repeat a n) t) (flat_map (fun a => repeat a m) t) (ty_pow t m)) as (x & -> & Tx).
    { now split. } { now split. }
    cbn [bind]. eapply typed_then; [|exact Tx]. now split. }
  unfold spider. destruct t as [|a [|b t]]; [exact Gen| |exact Gen].
  exists (to_diag (Spider a n m)). split; [reflexivity|]. apply typed_to_diag; cbn; auto.
  - clear. induction n; cbn in *; congruence.
  - clear. induction m; cbn in *; congruence.
Qed.

(** ** slicing *)
Lemma chain_sub x ls d c : chain d (x :: ls) c -> chain (l_dom x) (x :: ls) (l_cod (last (x :: ls) x)).
Proof.
  cbn [chain]. intros [_ H]. split; auto. revert x H.
  induction ls as [|y ls IH]; intros x H; [reflexivity|].
  destruct H as [E H]. change (last (x :: y :: ls) x) with (last (y :: ls) x).
  cbn [chain]. split; auto. specialize (IH y H).
  assert (L : last (y :: ls) y = last (y :: ls) x).
  { clear. revert y. induction ls as [|z ls IH]; intro y; auto. change (last (z :: ls) y = last (z :: ls) x).
    clear. revert z. induction ls; intro z; auto. apply (IHls a). }
  now rewrite <- L.
Qed.
Lemma last_cod ls x d c : chain d (x :: ls) c -> l_cod (last (x :: ls) x) = c.
Proof.
  intro H. pose proof (chain_sub H) as H1. destruct H as [-> H]. destruct H1 as [_ H1].
  eapply chain_fun; eauto.
Qed.

Lemma py_slice_app_form A (l : list A) a b : exists p q, l = p ++ py_slice l a b ++ q.
Proof.
  unfold py_slice.
  set (i := match a with None => 0 | Some i => adj (List.length l) i end).
  set (j := match b with None => List.length l | Some i => adj (List.length l) i end).
  exists (firstn i l), (skipn (j - i) (skipn i l)). now rewrite firstn_skipn, firstn_skipn.
Qed.

Lemma py_index_in A (l : list A) i : (- Z.of_nat (List.length l) <= i < Z.of_nat (List.length l))%Z ->
  exists x, py_index l i = Ok x /\ In x l.
Proof.
  intro H. unfold py_index.
  set (j := (if (i <? 0)%Z then (Z.of_nat (List.length l) + i)%Z else i)).
  assert (0 <= j < Z.of_nat (List.length l))%Z by (unfold j; destruct (Z.ltb_spec i 0); lia).
  destruct (Z.leb_spec 0 j); [|lia]. destruct (Z.ltb_spec j (Z.of_nat (List.length l))); [|lia]. cbn.
  destruct (nth_error l (Z.to_nat j)) eqn:E.
  - exists a. split; auto. eapply nth_error_In; eauto.
  - apply nth_error_None in E. lia.
Qed.

Lemma d_slice_wf d a b : wf d -> exists x, d_slice d a b = Ok x /\ wf x /\ layers x = py_slice (layers d) a b.
Proof.
  intros [H B]. unfold d_slice.
  destruct (py_slice_app_form (layers d) a b) as (p & q & E).
  destruct (py_slice (layers d) a b) as [|x ls] eqn:Es.
  - set (a1 := match a with None => 0%Z | Some i => i end).
    destruct (Z.geb_spec a1 (Z.of_nat (List.length (layers d)))); [exists (id (cod d)); auto using wf_id|].
    destruct (Z.leb_spec a1 (- Z.of_nat (List.length (layers d)))); [exists (id (dom d)); auto using wf_id|].
    destruct (@py_index_in _ (layers d) a1) as (x & -> & _); [lia|]. cbn. exists (id (l_dom x)); auto using wf_id.
  - exists (Diag (l_dom x) (l_cod (last (x :: ls) x)) (x :: ls)). split; auto. split; [|reflexivity].
    rewrite E in H, B. apply chain_app in H as (m & _ & H). apply chain_app in H as (m' & H & _).
    rewrite !All_app in B. split; [|apply B]. cbn [dom cod layers]. eapply chain_sub; eauto.
Qed.

Lemma d_slice_split d i : wf d -> exists x y, d_slice d None (Some i) = Ok x /\ d_slice d (Some i) None = Ok y /\
  d_then x y = Ok d.
Proof.
  intros [H B]. pose proof (py_slice_split (layers d) i) as Sp.
  rewrite py_slice_stop, py_slice_start in Sp.
  set (k := adj (List.length (layers d)) i) in *.
  assert (Hk : k <= List.length (layers d)) by apply adj_le.
  unfold d_slice. rewrite py_slice_stop, py_slice_start. fold k.
  set (n := List.length (layers d)) in *.
  assert (X : (match firstn k (layers d) with
     | [] => if (0 >=? Z.of_nat n)%Z then Ok (id (cod d)) else if (0 <=? - Z.of_nat n)%Z then Ok (id (dom d))
             else do x <- py_index (layers d) 0; Ok (id (l_dom x))
     | x :: _ => Ok (Diag (l_dom x) (l_cod (last (firstn k (layers d)) x)) (firstn k (layers d)))
     end) = Ok (Diag (dom d) (match skipn k (layers d) with [] => cod d | y :: _ => l_dom y end) (firstn k (layers d)))).
  { destruct (firstn k (layers d)) as [|x ls] eqn:Ef.
    - assert (k = 0 \/ n = 0) by (apply (f_equal (@List.length _)) in Ef; rewrite firstn_length in Ef; cbn in Ef; lia).
      destruct (layers d) as [|y ys] eqn:El.
      + cbn in H. cbn. rewrite skipn_nil. subst n. cbn. now rewrite H.
      + assert (k = 0) by (subst n; cbn in *; lia). rewrite H1. cbn [skipn].
        destruct H as [Hd _]. subst n. cbn. now rewrite Hd.
    - destruct (skipn k (layers d)) as [|y ys] eqn:Es.
      + rewrite app_nil_r in Sp. rewrite <- Sp in H. rewrite (last_cod H). destruct H as [<- _]. reflexivity.
      + rewrite <- Sp in H. apply chain_app in H as (m & H1 & H2). rewrite (last_cod H1).
        destruct H1 as [<- _]. destruct H2 as [-> _]. reflexivity. }
  assert (Y : (match skipn k (layers d) with
     | [] => if (i >=? Z.of_nat n)%Z then Ok (id (cod d)) else if (i <=? - Z.of_nat n)%Z then Ok (id (dom d))
             else do x <- py_index (layers d) i; Ok (id (l_dom x))
     | x :: _ => Ok (Diag (l_dom x) (l_cod (last (skipn k (layers d)) x)) (skipn k (layers d)))
     end) = Ok (Diag (match skipn k (layers d) with [] => cod d | y :: _ => l_dom y end) (cod d) (skipn k (layers d)))).
  { destruct (skipn k (layers d)) as [|y ys] eqn:Es.
    - assert (k = n) by (apply (f_equal (@List.length _)) in Es; rewrite skipn_length in Es; cbn in Es; lia).
      destruct (Z.geb_spec i (Z.of_nat n)); [reflexivity|].
      unfold k, adj in H0. destruct (Z.ltb_spec i 0).
      + assert (n = 0) by lia. destruct (Z.leb_spec i (- Z.of_nat n)); [|lia].
        unfold n in H3. destruct (layers d); [|discriminate]. cbn in H. now rewrite H.
      + lia.
    - rewrite <- Sp in H. apply chain_app in H as (m & _ & H2). now rewrite (last_cod H2). }
  do 2 eexists. split; [exact X|]. split; [exact Y|].
  rewrite d_then_ok by reflexivity. cbn [dom cod layers]. rewrite Sp. now destruct d.
Qed.

Lemma d_reverse_dagger d : wf d -> d_reverse d = d_dagger d.
Proof. intro W. now rewrite (d_dagger_eq W). Qed.

(** ** create_pregroup_diagram *)
Lemma flat_map_snd_app (ws vs : list (string * ty)) : flat_map snd (ws ++ vs) = flat_map snd ws ++ flat_map snd vs.
Proof. apply flat_map_app. Qed.

Definition app_at (d : diagram) (p : diagram * Z) : res diagram :=
  let '(x, off) := p in
  d_then d (tensor (tensor (id (py_slice (cod d) None (Some off))) x)
                   (id (py_slice (cod d) (Some (off + Z.of_nat (List.length (dom x))))%Z None))).
Lemma app_at_then_at d x off : app_at d (x, off) = then_at d x off.
Proof. reflexivity. Qed.

Lemma foldM_app S A (f : S -> A -> res S) l m s :
  foldM f (l ++ m) s = do s' <- foldM f l s; foldM f m s'.
Proof. revert s; induction l as [|x l IH]; intro s; cbn; auto. destruct (f s x); cbn; auto. Qed.

Lemma words_loop : forall ws d pre, cod d = pre ->
  foldM app_at (word_offsets (List.length pre) ws) d =
  Ok (Diag (dom d) (pre ++ flat_map snd ws) (layers d ++ word_layers pre ws)).
Proof.
  induction ws as [|[n c] ws IH]; intros d pre E; cbn [word_offsets foldM word_layers flat_map snd].
  - destruct d; cbn in *; subst. now rewrite !app_nil_r.
  - rewrite app_at_then_at.
    rewrite (@then_at_ok d (to_diag (Word n c 0)) pre []); [|cbn; now rewrite app_nil_r|reflexivity].
    cbn [bind cod to_diag dom layers b_cod b_end map l_extend app]. rewrite !app_nil_r.
    rewrite <- app_length. rewrite IH by reflexivity. cbn [dom layers].
    now rewrite <- !app_assoc.
Qed.

Lemma actual_idx_snoc prev t s e x : actual_idx (prev ++ [(t, s, e)]) x =
  match t with MCup => if (s <? x)%Z then (actual_idx prev x - 2)%Z else actual_idx prev x | _ => actual_idx prev x end.
Proof. unfold actual_idx. now rewrite fold_left_app. Qed.

Lemma py_slice_one (l : ty) i da : i < List.length l ->
  py_slice l (Some (Z.of_nat i)) (Some (Z.of_nat i + 1)%Z) = [nth i l da].
Proof.
  intro H. unfold py_slice. replace (Z.of_nat i + 1)%Z with (Z.of_nat (S i)) by lia.
  rewrite !adj_of_nat. rewrite !Nat.min_l by lia. replace (S i - i) with 1 by lia.
  destruct (nth_error l i) eqn:E; [|apply nth_error_None in E; lia].
  rewrite (skipn_nth_error E). cbn. now rewrite (nth_error_nth _ _ da E).
Qed.

Lemma cup_run_loop types da rem ms ls rem' : cup_run types da rem ms ls rem' ->
  forall prev d,
  StronglySorted lt rem -> (forall x, In x rem -> x < List.length types) ->
  (forall R1 x R2, rem = R1 ++ x :: R2 -> Z.of_nat (List.length R1) = actual_idx prev (Z.of_nat x)) ->
  cod d = map (fun i => nth i types da) rem ->
  exists mbs, pregroup_morphisms types prev ms = Ok mbs /\
    foldM app_at mbs d = Ok (Diag (dom d) (map (fun i => nth i types da) rem') (layers d ++ ls)).
Proof.
  induction 1 as [rem|R1 s e R2 ms ls rem' Hadj _ IH]; intros prev d Hs Hr Hidx Hc.
  - exists []. cbn. split; auto. destruct d; cbn in *. now rewrite Hc, app_nil_r.
  - cbn [pregroup_morphisms]. unfold pregroup_box.
    rewrite !(@py_slice_one types _ da) by (apply Hr; rewrite in_app_iff; cbn; auto).
    unfold cups. rewrite Hadj, mk_cup_ok. cbn [rmap bind].
    set (f := fun i => nth i types da) in *.
    assert (S1 : StronglySorted lt (R1 ++ R2) /\ (forall y, In y R1 -> y < s) /\ (forall y, In y R2 -> s < y)).
    { apply sorted_app_cons in Hs as (Sa & Sb & Sc). apply sorted_app_cons in Sa as (Sd & Se & Sf).
      repeat split; auto. intros y Hy. apply Sc. now right. }
    destruct S1 as (S1 & S2 & S3).
    rewrite map_app in Hc. cbn [map] in Hc.
    set (d1 := Diag (dom d) (map f (R1 ++ R2)) (layers d ++ [(map f R1, Cup (f s) (f e) false, map f R2)])).
    destruct (IH (prev ++ [(MCup, Z.of_nat s, Z.of_nat e)]) d1) as (mbs & Em & Ef).
    + exact S1.
    + intros x Hx. apply Hr. rewrite in_app_iff in *. cbn. tauto.
    + intros Q1 x Q2 EQ. rewrite actual_idx_snoc.
      destruct (app_mid_split EQ) as [(T & E1 & E2)|(T & E1 & E2)]; subst.
      * assert (x < s) by (apply S2; rewrite in_app_iff; cbn; auto).
        destruct (Z.ltb_spec (Z.of_nat s) (Z.of_nat x)); [lia|].
        apply (Hidx Q1 x (T ++ s :: e :: R2)). now rewrite <- app_assoc.
      * assert (s < x) by (apply S3; rewrite in_app_iff; cbn; auto).
        destruct (Z.ltb_spec (Z.of_nat s) (Z.of_nat x)); [|lia].
        rewrite <- (Hidx (R1 ++ s :: e :: T) x Q2) by now rewrite <- app_assoc.
        rewrite !app_length. cbn. lia.
    + reflexivity.
    + unfold morphism in *. rewrite Em. cbn [bind]. eexists. split; [reflexivity|]. cbn [foldM]. rewrite app_at_then_at.
      rewrite <- (Hidx R1 s (e :: R2) eq_refl).
      change (rot_atom (-1) (nth e types da)) with (rot_atom (-1) (f e)) in *.
      change (nth e types da) with (f e) in *. change (nth s types da) with (f s) in *.
      rewrite <- Hadj.
      erewrite then_at_ok; [|exact Hc|now rewrite map_length]. cbn [bind].
      cbn [cod to_diag b_cod b_end app layers map l_extend]. rewrite app_nil_r.
      unfold d1 in Ef. rewrite map_app in Ef. etransitivity; [exact Ef|]. cbn [dom layers]. rewrite <- app_assoc. reflexivity.
Qed.

Lemma word_layers_wf ws : forall pre, chain pre (word_layers pre ws) (pre ++ flat_map snd ws) /\
  All (fun x => box_ok (l_box x)) (word_layers pre ws).
Proof.
  induction ws as [|[n c] ws IH]; intro pre; cbn [word_layers flat_map snd].
  - cbn. now rewrite app_nil_r.
  - cbn [chain All l_dom l_cod l_box b_dom b_cod b_end app]. rewrite !app_nil_r.
    destruct (IH (pre ++ c)) as [H1 H2]. rewrite <- app_assoc in H1. repeat split; auto.
Qed.
Lemma cup_run_wf types da rem ms ls rem' : cup_run types da rem ms ls rem' ->
  chain (map (fun i => nth i types da) rem) ls (map (fun i => nth i types da) rem') /\
  All (fun x => box_ok (l_box x)) ls.
Proof.
  induction 1 as [rem|R1 s e R2 ms ls rem' Hadj _ [IH1 IH2]]; [split; cbn; auto|].
  cbn [chain All l_dom l_cod l_box b_dom b_cod b_end app]. rewrite map_app in *. repeat split; auto.
Qed.

Lemma create_pregroup_spec words ms da ls rem' :
  cup_run (flat_map snd words) da (seq 0 (List.length (flat_map snd words))) ms ls rem' ->
  exists d, create_pregroup_diagram words ms = Ok d /\ wf d /\ dom d = [] /\
    cod d = map (fun i => nth i (flat_map snd words) da) rem' /\
    layers d = word_layers [] words ++ ls.
Proof.
  intro H. unfold create_pregroup_diagram.
  set (types := flat_map snd words) in *.
  destruct (@cup_run_loop _ _ _ _ _ _ H [] (Diag [] types (word_layers [] words))) as (mbs & Em & Ef).
  - apply seq_sorted.
  - intros x Hx. apply in_seq in Hx. lia.
  - intros R1 x R2 E. apply seq_mid in E. unfold actual_idx. cbn. lia.
  - cbn [cod]. now rewrite map_nth_seq.
  - rewrite Em. cbn [bind].
    change (foldM (fun d '(x, off) => _) ?l ?s) with (foldM app_at l s).
    rewrite foldM_app. pose proof (@words_loop words (id []) [] eq_refl) as Hw.
    cbn [List.length] in Hw. rewrite Hw. cbn [bind dom layers id app].
    fold types. rewrite Ef. cbn [dom layers]. eexists. split; [reflexivity|].
    destruct (cup_run_wf H) as [C1 B1]. destruct (word_layers_wf words []) as [C2 B2].
    rewrite map_nth_seq in C1. split; [|cbn; auto]. split; cbn [dom cod layers].
    + eapply chain_app_i; [exact C2|exact C1].
    + rewrite All_app. auto.
Qed.

Lemma d_index_spec d k : wf d -> let n := Z.of_nat (List.length (layers d)) in
  ((- n <= k < n)%Z -> exists x l, d_index d k = Ok x /\ wf x /\ layers x = [l] /\
     nth_error (layers d) (Z.to_nat (if (k <? 0)%Z then k + n else k)%Z) = Some l) /\
  (~ (- n <= k < n)%Z -> d_index d k = Err IndexError).
Proof.
  intros W n. unfold d_index. fold n. split; intro H.
  - assert (E : ((k >=? n) || (k <? - n))%Z = false) by (apply orb_false_intro; [rewrite Z.geb_leb; apply Z.leb_gt|apply Z.ltb_ge]; lia).
    rewrite E. set (i := Z.to_nat (if (k <? 0)%Z then k + n else k)%Z).
    assert (Ei : (if (k <? 0)%Z then n + k else k)%Z = Z.of_nat i) by (unfold i; destruct (Z.ltb_spec k 0); lia).
    rewrite Ei. destruct (d_slice_wf (Some (Z.of_nat i)) (Some (Z.of_nat i + 1)%Z) W) as (x & Ex & Wx & Lx).
    assert (Hi : i < List.length (layers d)) by (unfold n, i in *; destruct (Z.ltb_spec k 0); lia).
    destruct (nth_error (layers d) i) as [l|] eqn:El; [|apply nth_error_None in El; lia].
    exists x, l. repeat split; try apply Wx; auto. rewrite Lx. unfold py_slice. replace (Z.of_nat i + 1)%Z with (Z.of_nat (S i)) by lia.
    rewrite !adj_nonneg, !Nat2Z.id by lia. rewrite !Nat.min_l by lia. replace (S i - i) with 1 by lia.
    apply nth_error_split in El. destruct El as (a & b & -> & <-). now rewrite skipn_app, skipn_all, Nat.sub_diag.
  - assert (E : ((k >=? n) || (k <? - n))%Z = true) by (apply orb_true_iff; rewrite Z.geb_le, Z.ltb_lt; lia).
    now rewrite E.
Qed.

Lemma is_pregroup_loop_false ls : is_pregroup_loop false ls = true <->
  forall l b r, In (l, b, r) ls -> (exists x y rv, b = Cup x y rv) \/ (exists x y, b = Swap x y).
Proof.
  induction ls as [|[[l b] r] ls IH]; cbn; [split; [intros _ ? ? ? []|auto]|]. split.
  - intros H l' b' r' [[= <- <- <-]|I].
    + destruct b; try discriminate; [left; eauto|right; eauto].
    + destruct b; try discriminate; apply (proj1 IH H) in I; auto.
  - intro H. destruct (H l b r) as [(x & y & rv & ->)|(x & y & ->)]; auto; apply IH; intros; eapply H; eauto.
Qed.
Lemma is_pregroup_spec d : is_pregroup d = true <->
  dom d = [] /\ exists ws rest, layers d = ws ++ rest /\
    (forall l b r, In (l, b, r) ws -> r = [] /\ exists n c z, b = Word n c z) /\
    (forall l b r, In (l, b, r) rest -> (exists x y rv, b = Cup x y rv) \/ (exists x y, b = Swap x y)).
Proof.
  unfold is_pregroup. destruct (dom d); [|split; [discriminate|intros [[=] _]]]. split.
  - intro H. split; auto. induction (layers d) as [|[[l b] r] ls IH]; [exists [], []; split; [reflexivity|split; intros ? ? ? []]|].
    destruct b; cbn in H; try discriminate.
    + destruct r; [|discriminate]. destruct (IH H) as (ws & rest & -> & A & B). exists ((l, Word name wcod z, []) :: ws), rest. split; auto. split; auto.
      intros l' b' r' [[= <- <- <-]|I]; eauto.
    + exists [], ((l, Cup l0 r0 rv, r) :: ls). split; auto. split; [intros ? ? ? []|]. apply (is_pregroup_loop_false ((l, Cup l0 r0 rv, r) :: ls)). exact H.
    + exists [], ((l, Swap l0 r0, r) :: ls). split; auto. split; [intros ? ? ? []|]. apply (is_pregroup_loop_false ((l, Swap l0 r0, r) :: ls)). exact H.
  - intros (_ & ws & rest & -> & A & B). induction ws as [|[[l b] r] ws IH]; cbn.
    + assert (H : is_pregroup_loop false rest = true) by (apply is_pregroup_loop_false; auto).
      clear -H. destruct rest as [|[[l b] r] rest]; auto. destruct b; try discriminate; exact H.
    + destruct (A l b r (or_introl eq_refl)) as (-> & n & c & z & ->). apply IH. intros l1 b1 r1 I1. apply (A l1 b1 r1). cbn. auto.
Qed.
Lemma create_is_pregroup words ms da ls rem' d :
  cup_run (flat_map snd words) da (seq 0 (List.length (flat_map snd words))) ms ls rem' ->
  create_pregroup_diagram words ms = Ok d -> is_pregroup d = true.
Proof.
  intros H E. destruct (create_pregroup_spec H) as (d' & E' & _ & D & _ & L). rewrite E in E'. injection E' as <-.
  apply is_pregroup_spec. split; auto. exists (word_layers [] words), ls. split; auto. split.
  - enough (G : forall pre l b r, In (l, b, r) (word_layers pre words) -> r = [] /\ exists n c z, b = Word n c z) by exact (G []).
    clear. induction words as [|[n c] ws IH]; intros pre l b r; cbn; [intros []|]. intros [[= <- <- <-]|I]; [split; eauto|eapply IH; eauto].
  - clear E L D. induction H; intros l b r; cbn; [intros []|]. intros [[= <- <- <-]|I]; eauto.
Qed.
