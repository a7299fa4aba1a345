(** Rewriting: proofs. *)
From Coq Require Import Ascii.
From Verif Require Import PyBase PyFacts TyModel TyFacts DiagModel DiagSpec DiagFacts DiagRot DiagPerm DiagCups DiagMisc BoxEq
  FunctorModel FunctorSpec FunctorCache FunctorFacts RewModel RewSpec.
Set Implicit Arguments. Unset Strict Implicit.

Lemma skipn_skipn A (l : list A) : forall a b, skipn a (skipn b l) = skipn (b + a) l.
Proof. intros a b. revert l. induction b as [|b IH]; intros [|x l]; cbn; auto. now rewrite skipn_nil. Qed.

(** ** the identity object map *)
Definition iob (n : string) : ty := [(n, 0%Z)].
Lemma Hid n : id_ob n = Ok (iob n).
Proof. reflexivity. Qed.
Lemma Fa_id a : Fa iob a = [a].
Proof. unfold Fa, iob. destruct a as [n z]. rewrite rot_single. cbn. reflexivity. Qed.
Lemma Fo_id t : Fo iob t = t.
Proof. unfold Fo. induction t as [|a t IH]; cbn [flat_map]; auto. rewrite Fa_id, IH. reflexivity. Qed.
Lemma rev_ok_id b : rev_ok iob b.
Proof. induction b; cbn; auto; destruct rv; auto. Qed.
Lemma respects_id ar x : (exists d, ar x = Ok d /\ typed d (b_dom x) (b_cod x)) -> respects iob ar x.
Proof. unfold respects. now rewrite !Fo_id. Qed.

Lemma id_diag_typed ar d : wf d -> All (fun x => All (fun y => exists e, ar y = Ok e /\ typed e (b_dom y) (b_cod y)) (basics (l_box x))) (layers d) ->
  exists e, F_diag id_ob ar d = Ok e /\ typed e (dom d) (cod d).
Proof.
  intros W H. pose proof (@diag_typed id_ob ar iob Hid d W) as G. rewrite !Fo_id in G. apply G.
  clear W G. induction (layers d) as [|x ls IH]; cbn in *; auto. destruct H as [H1 H2]. split; auto.
  split; [apply rev_ok_id|]. clear -H1. induction (basics (l_box x)); cbn in *; auto. destruct H1. split; auto.
  now apply respects_id.
Qed.
Lemma id_diag_ends ar d e : F_diag id_ob ar d = Ok e -> dom e = dom d /\ cod e = cod d.
Proof. intro H. apply (@F_check_inv id_ob iob Hid) in H. rewrite !Fo_id in H. tauto. Qed.

(** ** typing of the rules *)
Lemma basics_ok b : box_ok b -> All box_ok (basics b).
Proof.
  induction b; intro H; cbn [basics]; try exact I; try exact (IHb H);
    (split; [|exact I]); (destruct (_ =? _)%Z; [exact H|now apply box_ok_rotate]).
Qed.
Lemma All_in A (P : A -> Prop) l : All P l <-> forall x, In x l -> P x.
Proof.
  induction l as [|a l IH]; cbn; [tauto|]. rewrite IH. split.
  - intros [H1 H2] x [->|]; auto.
  - intro H. split; auto.
Qed.
Lemma simple_typed t c b : typed t [] c ->
  All (fun x => forall y, In y (basics (l_box x)) -> b_name y = PLACEHOLDER -> b_dom y = []) (layers t) ->
  exists d, simple_rewrite t b = Ok d /\ typed d [] c.
Proof.
  intros (W & D & C) H. unfold simple_rewrite.
  destruct (@id_diag_typed (replace_placeholder (b_name b)) t W) as (e & E & T).
  - destruct W as [_ W]. rewrite All_in in *. intros x Hx. specialize (H x Hx). specialize (W x Hx).
    apply basics_ok in W. rewrite All_in in *. intros y Hy. unfold replace_placeholder.
    destruct (String.eqb_spec (b_name y) PLACEHOLDER) as [Hn|Hn].
    + eexists; split; [reflexivity|]. rewrite (H y Hy Hn). now apply typed_to_diag.
    + eexists; split; [reflexivity|]. apply typed_box. auto.
  - rewrite D, C in T. eauto.
Qed.

Lemma coord_typed b ws : coord_matches ws b = true -> exists d, coord_rewrite b = Ok d /\ typed d [] (b_cod b).
Proof.
  unfold coord_matches, coord_rewrite. destruct (mem (b_name b) ws && _); [|congruence].
  destruct (thirds (b_cod b)) as [[lt mid] rt] eqn:E. intro H. rewrite H.
  apply andb_prop in H. destruct H as [H1 H2]. apply ty_eqb_iff in H1. apply ty_eqb_iff in H2.
  assert (C : b_cod b = lt ++ mid ++ rt).
  { unfold thirds in E.
    pose proof (f_equal (fun x => fst (fst x)) E) as E1. pose proof (f_equal (fun x => snd (fst x)) E) as E2.
    pose proof (f_equal snd E) as E3. cbn [fst snd] in E1, E2, E3. clear E. subst lt rt. rewrite <- E2. clear E2 H1 H2. set (n := List.length (b_cod b) / 3).
    replace (2 * Z.of_nat n)%Z with (Z.of_nat (2 * n)) by lia.
    unfold py_slice.
    assert (n * 3 <= List.length (b_cod b)). { unfold n. rewrite Nat.mul_comm. apply Nat.mul_div_le. lia. }
    rewrite !adj_nonneg by lia. rewrite !Nat2Z.id.
    rewrite !Nat.min_l by lia. rewrite Nat.sub_0_r. cbn [skipn].
    rewrite (firstn_all2 (n := List.length (b_cod b) - 2 * n)) by (rewrite skipn_length; lia).
    rewrite <- (firstn_skipn n (b_cod b)) at 1. f_equal.
    replace (2 * n - n) with n by lia.
    rewrite <- (firstn_skipn n (skipn n (b_cod b))) at 1. f_equal. rewrite skipn_skipn. f_equal. lia. }
  rewrite C. subst mid.
  assert (L : lt = rot 1 (rot 1 rt)). { rewrite H2. now rewrite rot_lr. }
  rewrite L.
  destruct (caps_typed (rot 1 rt)) as (c1 & -> & T1). destruct (caps_typed rt) as (c2 & -> & T2).
  destruct (spider_typed (rot 1 rt) 2 1) as (sp & -> & T3). cbn [bind].
  pose proof (typed_tensor T1 T2) as A.
  pose proof (typed_tensor (typed_tensor (typed_id (rot 1 (rot 1 rt))) T3) (typed_id rt)) as B.
  cbn [ty_pow] in B. rewrite ?app_nil_r, ?app_assoc in *. cbn [app] in *. rewrite <- ?app_assoc in *.
  cbn in A. destruct (typed_then A B) as (d & -> & T). eauto.
Qed.

Lemma lead_le p c : lead p c <= List.length c.
Proof. induction c as [|a c IH]; cbn; auto. destruct (p a); lia. Qed.
Lemma lead_all p c k : k < lead p c -> forall a, nth_error c k = Some a -> p a = true.
Proof.
  revert k. induction c as [|x c IH]; cbn; intros k H a E; [lia|]. destruct (p x) eqn:P; [|lia].
  destruct k; cbn in E; [congruence|]. eapply IH; eauto. lia.
Qed.
Lemma curry_split c : let i := lead (fun a => (0 <? snd a)%Z) c in
  let j1 := List.length c - lead (fun a => (snd a <? 0)%Z) (rev c) in i <= j1 /\ j1 <= List.length c.
Proof.
  intros i j1. pose proof (lead_le (fun a => (0 <? snd a)%Z) c) as L1. fold i in L1.
  pose proof (lead_le (fun a => (snd a <? 0)%Z) (rev c)) as L2. rewrite rev_length in L2.
  split; [|unfold j1; lia].
  destruct (Nat.le_gt_cases i j1) as [|G]; auto. exfalso.
  (* the object at position j1 is both positive and negative *)
  assert (Hj : j1 < List.length c) by lia.
  destruct (nth_error c j1) as [a|] eqn:E; [|apply nth_error_None in E; lia].
  pose proof (lead_all (p := fun a => (0 <? snd a)%Z) (k := j1) G E) as P1. cbn in P1.
  assert (E2 : nth_error (rev c) (List.length c - S j1) = Some a).
  { rewrite (nth_error_nth' _ a) by (rewrite rev_length; lia). rewrite rev_nth by lia.
    replace (List.length c - S (List.length c - S j1)) with j1 by lia. now rewrite (nth_error_nth _ _ a E). }
  pose proof (@lead_all (fun a => (snd a <? 0)%Z) (rev c) (List.length c - S j1) ltac:(unfold j1 in *; lia) a E2) as P2. cbn in P2. lia.
Qed.
Lemma curry_rw_typed b : exists d, curry_rewrite b = Ok d /\ typed d (b_dom b) (b_cod b).
Proof.
  unfold curry_rewrite. set (c := b_cod b). destruct (curry_split c) as [Hij Hjl].
  set (i := lead _ c) in *. set (j1 := List.length c - _) in *.
  rewrite py_slice_stop_pos, py_slice_start_pos by lia. rewrite !Nat2Z.id.
  assert (M : py_slice c (Some (Z.of_nat i)) (Some (Z.of_nat j1)) = firstn (j1 - i) (skipn i c)).
  { unfold py_slice. rewrite !adj_nonneg, !Nat2Z.id by lia. rewrite !Nat.min_l by lia. reflexivity. }
  rewrite M. set (lt := firstn i c). set (rt := skipn j1 c). set (mid := firstn (j1 - i) (skipn i c)).
  assert (C : c = lt ++ mid ++ rt).
  { unfold lt, mid, rt. rewrite <- (firstn_skipn i c) at 1. f_equal.
    rewrite <- (firstn_skipn (j1 - i) (skipn i c)) at 1. f_equal. rewrite skipn_skipn. f_equal. lia. }
  set (nb := to_diag _).
  assert (T0 : typed nb (rot (-1) lt ++ b_dom b ++ rot 1 rt) mid) by now apply typed_to_diag.
  assert (T1 : exists nb1, (if Nat.eqb (List.length lt) 0 then Ok nb else curry nb (Z.of_nat (List.length lt)) false) = Ok nb1
              /\ typed nb1 (b_dom b ++ rot 1 rt) (lt ++ mid)).
  { destruct (Nat.eqb_spec (List.length lt) 0) as [E|E].
    - apply length_zero_iff_nil in E. rewrite E in *. cbn [app] in *. eauto.
    - destruct (curry_right_typed T0) as (d & Ed & Td). rewrite rot_length in Ed. rewrite Ed. rewrite rot_lr in Td. eauto. }
  destruct T1 as (nb1 & -> & T1). cbn [bind].
  destruct (Nat.eqb_spec (List.length rt) 0) as [E|E].
  - apply length_zero_iff_nil in E. rewrite E in *. eexists; split; [reflexivity|].
    rewrite C. change (rot 1 (@nil atom)) with (@nil atom) in T1. rewrite !app_nil_r in *. exact T1.
  - destruct (curry_left_typed T1) as (d & Ed & Td).
    { intro H. apply E. rewrite <- (rot_length 1 rt), H. reflexivity. }
    rewrite rot_length in Ed. rewrite Ed. rewrite rot_rl in Td. eexists; split; [reflexivity|].
    rewrite C at 1. now rewrite <- app_assoc in Td.
Qed.

Lemma collapse_typed lf b : exists d, collapse_rewrite lf b = Ok d /\ typed d (b_dom b) (b_cod b).
Proof.
  unfold collapse_rewrite. destruct lf.
  - destruct (cups_typed_l (b_dom b)) as (c & -> & T). cbn [bind].
    eapply typed_then.
    + assert (X : typed (to_diag (Box (b_name b) [] (rot 1 (b_dom b) ++ b_cod b) 0)) [] (rot 1 (b_dom b) ++ b_cod b)) by now apply typed_to_diag.
      pose proof (typed_tensor (typed_id (b_dom b)) X) as H. rewrite app_nil_r in H. exact H.
    + rewrite app_assoc. exact (typed_tensor T (typed_id (b_cod b))).
  - destruct (cups_typed (b_dom b)) as (c & -> & T). cbn [bind].
    eapply typed_then.
    + assert (X : typed (to_diag (Box (b_name b) [] (b_cod b ++ rot (-1) (b_dom b)) 0)) [] (b_cod b ++ rot (-1) (b_dom b))) by now apply typed_to_diag.
      exact (typed_tensor X (typed_id (b_dom b))).
    + rewrite <- app_assoc. pose proof (typed_tensor (typed_id (b_cod b)) T) as H. now rewrite app_nil_r in H.
Qed.

Lemma rule_typed r b : rule_good r -> meant_for r b -> rule_matches r b = true ->
  exists d, rule_rewrite r b = Ok d /\ typed d (b_dom b) (b_cod b).
Proof.
  destruct r; cbn [rule_good rule_matches rule_rewrite]; intros G M H.
  - destruct G as [G1 G2]. unfold simple_matches in H. apply andb_prop in H. destruct H as [H _].
    apply ty_eqb_iff in H. rewrite H, (M I). now apply simple_typed.
  - rewrite (M I). eapply coord_typed; eauto.
  - apply curry_rw_typed.
  - apply collapse_typed.
  - unfold unknown_matches in H. destruct b; cbn in H; try discriminate. eexists; split; [reflexivity|]. now apply typed_to_diag.
Qed.

Lemma templates_ok : typed (get connector_template) [] (over St St) /\ connector_template = Ok (get connector_template).
Proof. split; [|reflexivity]. vm_compute. repeat split. Qed.

Lemma available_good s r : In (s, r) available_rules -> rule_good r.
Proof.
  cbn [available_rules default_rules app In].
  intro H. repeat (destruct H as [H|H]; [injection H as <- <-|]); try contradiction; try exact I;
  cbn [rule_good]; (split; [vm_compute; repeat split|]);
  apply All_in; intros x Hx y Hy Hn; vm_compute in Hx;
  repeat (destruct Hx as [<-|Hx]; [vm_compute in Hy; repeat (destruct Hy as [<-|Hy]; [first [reflexivity|vm_compute in Hn; discriminate Hn]|]); contradiction|]);
  contradiction.
Qed.
Lemma templates_compute :
  is_ok connector_template = true /\ is_ok determiner_template = true /\ is_ok postadverb_template = true /\
  is_ok preadverb_template = true /\ is_ok auxiliary_template = true /\ is_ok prep_template = true /\
  is_ok object_template = true /\ is_ok subject_template = true.
Proof. vm_compute. auto 10. Qed.

Lemma rw_ar_typed rules b : box_ok b -> Forall rule_good rules ->
  (forall r, In r rules -> rule_matches r b = true -> meant_for r b) ->
  exists d, rw_ar rules b = Ok d /\ typed d (b_dom b) (b_cod b).
Proof.
  intros Hb. induction rules as [|r rs IH]; intros G M; cbn [rw_ar].
  - eexists; split; [reflexivity|]. now apply typed_box.
  - inversion G; subst. destruct (rule_matches r b) eqn:E.
    + apply rule_typed; auto. apply M; cbn; auto.
    + apply IH; auto. intros; apply M; cbn; auto.
Qed.
Lemma rewrite_typed rules d : wf d -> Forall rule_good rules ->
  All (fun x => All (fun y => forall r, In r rules -> rule_matches r y = true -> meant_for r y) (basics (l_box x))) (layers d) ->
  exists e, rewrite rules d = Ok e /\ typed e (dom d) (cod d).
Proof.
  intros W G M. apply id_diag_typed; auto. destruct W as [_ W]. rewrite All_in in *. intros x Hx.
  specialize (W x Hx). specialize (M x Hx). apply basics_ok in W. rewrite All_in in *. intros y Hy.
  apply rw_ar_typed; auto.
Qed.

(** ** first match wins *)
Lemma rw_ar_first pre r post b : (forall q, In q pre -> rule_matches q b = false) -> rule_matches r b = true ->
  rw_ar (pre ++ r :: post) b = rule_rewrite r b.
Proof.
  induction pre as [|q pre IH]; intros H E; cbn.
  - now rewrite E.
  - rewrite H by (cbn; auto). apply IH; auto. intros; apply H; cbn; auto.
Qed.
Lemma rw_ar_none rs b : (forall q, In q rs -> rule_matches q b = false) -> rw_ar rs b = Ok (to_diag b).
Proof.
  induction rs as [|q rs IH]; intros H; cbn; auto. rewrite H by (cbn; auto). apply IH. intros; apply H; cbn; auto.
Qed.
Lemma mem_iff w l : mem w l = true <-> In w l.
Proof.
  unfold mem. rewrite existsb_exists. split.
  - intros (x & H & E). apply String.eqb_eq in E. now subst.
  - intro H. exists w. split; auto. apply String.eqb_refl.
Qed.
Lemma rewrite_non_state r b post : rule_good r -> for_states r -> b_z b = 0%Z -> basic b -> b_dom b <> [] -> rule_matches r b = true ->
  rewrite (r :: post) (to_diag b) = Err TypeError.
Proof.
  intros G S Hz B Hd M. unfold rewrite. rewrite (@F_to_diag id_ob _ iob Hid). rewrite F_box_basic0 by auto.
  cbn [rw_ar]. rewrite M.
  assert (X : exists d, rule_rewrite r b = Ok d /\ dom d = []).
  { destruct r; try contradiction; cbn in *.
    - destruct (@simple_typed template rcod b) as (d & E & _ & D & _); try tauto. eauto.
    - destruct (coord_typed M) as (d & E & _ & D & _). eauto. }
  destruct X as (d & -> & D). rewrite (@F_check_eq id_ob iob Hid). cbn. rewrite !Fo_id, D.
  destruct (ty_eqb_spec [] (b_dom b)) as [E|E]; [congruence|]. cbn. now rewrite orb_true_r.
Qed.

(** ** UnifyCodomain *)
Lemma unify_ok out d : wf d -> exists e, unify_codomain out d = Ok e /\ typed e (dom d) out /\ (cod d = out -> e = d) /\
  (cod d <> out -> exists b, layers e = layers d ++ [([], b, [])] /\ b_dom b = cod d /\ b_cod b = out).
Proof.
  intro W. unfold unify_codomain. destruct (ty_eqb_spec (cod d) out) as [E|E].
  - exists d. repeat split; auto; try apply W. congruence.
  - set (b := Box _ _ _ _). destruct (@typed_then d (to_diag b) (dom d) (cod d) out) as (e & Ee & T).
    + repeat split; auto; apply W.
    + now apply typed_to_diag.
    + exists e. split; [exact Ee|]. split; [exact T|]. split; [congruence|]. intros _.
      apply d_then_inv in Ee. destruct Ee as [_ ->]. exists b. cbn. auto.
Qed.
Lemma unify_list out ds : All wf ds -> exists es, unify_codomain_list out ds = Ok es /\
  Forall2 (fun d e => unify_codomain out d = Ok e) ds es.
Proof.
  unfold unify_codomain_list. induction ds as [|d ds IH]; cbn [All mapM]; [eauto|]. intros [W Ws].
  destruct (IH Ws) as (es & E & F). destruct (unify_ok out W) as (e & Ee & _). rewrite Ee. cbn. rewrite E. cbn. eauto.
Qed.
