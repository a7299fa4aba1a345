(** Cups, caps, spiders of compound types and the combinators built from them (lemmas only). *)
From Coq Require Import Sorting.Sorted.
From Verif Require Import PyBase PyFacts TyModel TyFacts DiagModel DiagSpec DiagFacts DiagRot DiagPerm.
Set Implicit Arguments. Unset Strict Implicit.

Fixpoint cup_layers (right : ty) : list layer :=
  match right with
  | [] => []
  | a :: right' => (rev (map (rot_atom (-1)) right'), Cup (rot_atom (-1) a) a false, right') :: cup_layers right'
  end.

Lemma rot_m1 t : rot (-1) t = rev (map (rot_atom (-1)) t).
Proof. unfold rot. cbn. now rewrite map_rev. Qed.
Lemma rot_p1 t : rot 1 t = rev (map (rot_atom 1) t).
Proof. unfold rot. cbn. now rewrite map_rev. Qed.
Lemma combine_map_l A B (f : A -> B) l : combine (map f l) l = map (fun a => (f a, a)) l.
Proof. induction l; cbn; congruence. Qed.

Lemma mk_cup_ok a : mk_cup (rot_atom (-1) a) a false = Ok (Cup (rot_atom (-1) a) a false).
Proof. unfold mk_cup, cup_adjoint. now rewrite rot_single, ty_eqb_refl. Qed.
Lemma mk_cap_ok a : mk_cap (rot_atom 1 a) a false = Ok (Cap (rot_atom 1 a) a false).
Proof. unfold mk_cap, cap_adjoint. now rewrite rot_single, ty_eqb_refl. Qed.

Lemma cup_loop n : forall suf k d, cod d = rev (map (rot_atom (-1)) suf) ++ suf -> n = k + List.length suf ->
  foldM (fun d '(i, (l, r)) =>
           do b <- mk_cup l r false;
           then_at d (to_diag b) (Z.of_nat n - 1 - Z.of_nat i))
        (enum k (map (fun a => (rot_atom (-1) a, a)) suf)) d
  = Ok (Diag (dom d) [] (layers d ++ cup_layers suf)).
Proof.
  induction suf as [|a suf IH]; intros k d E En; cbn [map enum foldM cup_layers].
  - cbn in E. destruct d as [s t ls]; cbn in *; subst. now rewrite app_nil_r.
  - rewrite mk_cup_ok. cbn [bind]. cbn [map rev] in E. rewrite <- app_assoc in E. cbn [app] in E.
    erewrite then_at_ok; [|exact E|]. 2:{ rewrite rev_length, map_length. cbn in En. lia. }
    cbn [bind]. rewrite (IH (S k)); [|reflexivity|cbn in En; lia].
    cbn [dom cod layers to_diag map l_extend]. rewrite <- app_assoc, app_nil_r. reflexivity.
Qed.

Lemma rev_eq_nil A (l : list A) : rev l = [] -> l = [].
Proof. destruct l; cbn; auto. intro H. apply app_eq_nil in H. now destruct H. Qed.

Lemma cups_eq right : cups (rot (-1) right) right false =
  Ok (Diag (rot (-1) right ++ right) [] (cup_layers right)).
Proof.
  assert (G : foldM (fun d '(i, (l, r)) =>
           do b <- mk_cup l r false;
           then_at d (to_diag b) (Z.of_nat (List.length (rot (-1) right)) - 1 - Z.of_nat i))
        (enum 0 (combine (rev (rot (-1) right)) right)) (id (rot (-1) right ++ right))
     = Ok (Diag (rot (-1) right ++ right) [] (cup_layers right))).
  { rewrite rot_length. rewrite rot_m1, rev_involutive, combine_map_l.
    rewrite cup_loop; auto. }
  unfold cups, cup_adjoint. rewrite ty_eqb_refl.
  destruct right as [|r [|r' right]].
  - exact G.
  - rewrite rot_single. cbn. rewrite mk_cup_ok. reflexivity.
  - destruct (rot (-1) (r :: r' :: right)) as [|x [|y l]] eqn:E; exact G.
Qed.

Lemma cup_layers_wf right : chain (rev (map (rot_atom (-1)) right) ++ right) (cup_layers right) [] /\
  All (fun x => box_ok (l_box x)) (cup_layers right).
Proof.
  induction right as [|a right [IH1 IH2]]; cbn; auto. repeat split; auto.
  now rewrite <- app_assoc.
Qed.
Lemma cups_typed right : exists d, cups (rot (-1) right) right false = Ok d /\ typed d (rot (-1) right ++ right) [].
Proof.
  eexists. split; [apply cups_eq|]. split; [|split; reflexivity]. unfold wf. cbn. rewrite rot_m1.
  apply cup_layers_wf.
Qed.
Lemma cups_typed_l left : exists d, cups left (rot 1 left) false = Ok d /\ typed d (left ++ rot 1 left) [].
Proof.
  pose proof (cups_typed (rot 1 left)) as H. now rewrite rot_rl in H.
Qed.

Lemma cups_inv left right d : cups left right false = Ok d -> left = rot (-1) right.
Proof.
  unfold cups, cup_adjoint, mk_cup, cup_adjoint.
  destruct left as [|l [|l' left]], right as [|r [|r' right]];
    (match goal with |- context[ty_eqb ?a ?b] => destruct (ty_eqb_spec a b) as [E|] end;
    [intros _; exact E|cbn; discriminate]).
Qed.
Lemma cups_err left right : left <> rot (-1) right -> cups left right false = Err ValueError.
Proof.
  intro H. unfold cups, cup_adjoint, mk_cup, cup_adjoint.
  destruct left as [|l [|l' left]], right as [|r [|r' right]];
    rewrite (ty_eqb_neq H); reflexivity.
Qed.

(** explicit form: cup number i joins wire n-1-i of the left with wire i of the right *)
Lemma cup_layers_nth right : cup_layers right =
  map (fun i => (firstn (List.length right - 1 - i) (rot (-1) right),
                 Cup (nth (List.length right - 1 - i) (rot (-1) right) a0) (nth i right a0) false,
                 skipn (S i) right)) (seq 0 (List.length right)).
Proof.
  rewrite rot_m1. induction right as [|a right IH]; [reflexivity|].
  cbn [List.length seq map cup_layers]. rewrite Nat.sub_0_r. replace (S (List.length right) - 1) with (List.length right) by lia.
  cbn [map rev].
  assert (L : List.length (rev (map (rot_atom (-1)) right)) = List.length right) by now rewrite rev_length, map_length.
  f_equal.
  - rewrite firstn_app, app_nth2, L, Nat.sub_diag by lia. rewrite firstn_all2 by lia. cbn. now rewrite app_nil_r.
  - rewrite <- seq_shift, map_map. rewrite IH. apply map_ext_in. intros i Hi. apply in_seq in Hi.
    replace (List.length right - S i) with (List.length right - 1 - i) by lia.
    rewrite firstn_app, app_nth1 by lia.
    replace (List.length right - 1 - i - List.length (rev (map (rot_atom (-1)) right))) with 0 by lia.
    cbn [firstn]. rewrite app_nil_r. reflexivity.
Qed.

(** caps *)
Fixpoint cap_layers (pre suf : ty) : list layer :=
  match suf with
  | [] => []
  | a :: suf' => (map (rot_atom 1) pre, Cap (rot_atom 1 a) a false, rev pre) :: cap_layers (pre ++ [a]) suf'
  end.

Lemma cap_loop : forall suf pre d, cod d = map (rot_atom 1) pre ++ rev pre ->
  foldM (fun d '(i, (l, r)) =>
           do b <- mk_cap l r false;
           then_at d (to_diag b) (Z.of_nat i))
        (enum (List.length pre) (map (fun a => (rot_atom 1 a, a)) suf)) d
  = Ok (Diag (dom d) (map (rot_atom 1) (pre ++ suf) ++ rev (pre ++ suf)) (layers d ++ cap_layers pre suf)).
Proof.
  induction suf as [|a suf IH]; intros pre d E; cbn [map enum foldM cap_layers].
  - rewrite !app_nil_r. destruct d as [s t ls]; cbn in *; subst. reflexivity.
  - rewrite mk_cap_ok. cbn [bind].
    rewrite (@then_at_ok d (to_diag (Cap (rot_atom 1 a) a false)) (map (rot_atom 1) pre) (rev pre));
      [|exact E|now rewrite map_length].
    cbn [bind]. replace (S (List.length pre)) with (List.length (pre ++ [a])) by (rewrite app_length; cbn; lia).
    rewrite IH.
    + cbn [dom cod layers to_diag map l_extend app]. rewrite <- !app_assoc, app_nil_r. reflexivity.
    + cbn [cod to_diag b_cod b_end]. rewrite map_app, rev_app_distr, <- app_assoc. reflexivity.
Qed.

Lemma caps_eq right : caps (rot 1 right) right false =
  Ok (Diag [] (rot 1 right ++ right) (cap_layers [] (rev right))).
Proof.
  assert (G : foldM (fun d '(i, (l, r)) =>
           do b <- mk_cap l r false;
           then_at d (to_diag b) (Z.of_nat i))
        (enum 0 (combine (rot 1 right) (rev right))) (id [])
     = Ok (Diag [] (rot 1 right ++ right) (cap_layers [] (rev right)))).
  { rewrite rot_p1, <- map_rev, combine_map_l.
    pose proof (@cap_loop (rev right) [] (id []) eq_refl) as H. cbn [List.length dom layers id app] in H.
    rewrite H. now rewrite rev_involutive. }
  unfold caps, cap_adjoint. rewrite ty_eqb_refl.
  destruct right as [|r [|r' right]].
  - exact G.
  - rewrite rot_single. cbn. rewrite mk_cap_ok. reflexivity.
  - destruct (rot 1 (r :: r' :: right)) as [|x [|y l]] eqn:E; exact G.
Qed.

Lemma cap_layers_wf suf : forall pre,
  chain (map (rot_atom 1) pre ++ rev pre) (cap_layers pre suf) (map (rot_atom 1) (pre ++ suf) ++ rev (pre ++ suf)) /\
  All (fun x => box_ok (l_box x)) (cap_layers pre suf).
Proof.
  induction suf as [|a suf IH]; intro pre; cbn [cap_layers].
  - now rewrite app_nil_r.
  - destruct (IH (pre ++ [a])) as [H1 H2]. rewrite <- app_assoc in H1. cbn [app] in H1. split.
    + cbn [chain l_dom l_cod b_dom b_cod b_end app]. split; [reflexivity|].
      rewrite map_app, rev_app_distr, <- app_assoc in H1. exact H1.
    + cbn. auto.
Qed.
Lemma caps_typed right : exists d, caps (rot 1 right) right false = Ok d /\ typed d [] (rot 1 right ++ right).
Proof.
  eexists. split; [apply caps_eq|]. split; [|split; reflexivity]. unfold wf. cbn.
  pose proof (cap_layers_wf (rev right) []) as H. cbn [map app rev] in H.
  now rewrite rev_involutive, map_rev, <- rot_p1 in H.
Qed.
Lemma caps_typed_l left : exists d, caps left (rot (-1) left) false = Ok d /\ typed d [] (left ++ rot (-1) left).
Proof.
  pose proof (caps_typed (rot (-1) left)) as H. now rewrite rot_lr in H.
Qed.
Lemma caps_inv left right d : caps left right false = Ok d -> left = rot 1 right.
Proof.
  unfold caps, cap_adjoint, mk_cap, cap_adjoint.
  destruct left as [|l [|l' left]], right as [|r [|r' right]];
    (match goal with |- context[ty_eqb ?a ?b] => destruct (ty_eqb_spec a b) as [E|] end;
    [intros _; exact E|cbn; discriminate]).
Qed.
Lemma caps_err left right : left <> rot 1 right -> caps left right false = Err ValueError.
Proof.
  intro H. unfold caps, cap_adjoint, mk_cap, cap_adjoint.
  destruct left as [|l [|l' left]], right as [|r [|r' right]];
    rewrite (ty_eqb_neq H); reflexivity.
Qed.
Lemma cap_layers_nth_gen suf : forall pre, cap_layers pre suf =
  map (fun i => (map (rot_atom 1) (pre ++ firstn i suf),
                 Cap (rot_atom 1 (nth i suf a0)) (nth i suf a0) false,
                 rev (pre ++ firstn i suf))) (seq 0 (List.length suf)).
Proof.
  induction suf as [|a suf IH]; intro pre; [reflexivity|].
  cbn [List.length seq map cap_layers firstn nth]. rewrite app_nil_r. f_equal.
  rewrite <- seq_shift, map_map, IH. apply map_ext. intro i. now rewrite <- !app_assoc.
Qed.
Lemma nth_map_in A B (f : A -> B) l i d d' : i < List.length l -> nth i (map f l) d' = f (nth i l d).
Proof.
  revert i; induction l as [|x l IH]; intros [|i] H; cbn in *; try lia; auto. apply IH; lia.
Qed.
Lemma cap_layers_nth right : cap_layers [] (rev right) =
  map (fun i => (firstn i (rot 1 right),
                 Cap (nth i (rot 1 right) a0) (nth (List.length right - 1 - i) right a0) false,
                 skipn (List.length right - i) right)) (seq 0 (List.length right)).
Proof.
  rewrite cap_layers_nth_gen, rev_length. apply map_ext_in. intros i Hi. apply in_seq in Hi. cbn [app].
  rewrite rot_p1, <- map_rev, firstn_map. f_equal; [f_equal|].
  - rewrite (@nth_map_in _ _ _ _ _ a0) by (rewrite rev_length; lia). f_equal.
    rewrite rev_nth by lia. f_equal; lia.
  - rewrite firstn_rev, rev_involutive. reflexivity.
Qed.

(** reversed flag on compound types: always an error *)
Lemma cups_reversed_compound a b left right : cups (a :: b :: left) right true = Err ValueError.
Proof.
  unfold cups. set (L := a :: b :: left).
  destruct (cup_adjoint L right true) eqn:E; [|reflexivity].
  cbn [cup_adjoint] in E. destruct (ty_eqb_spec L (rot 1 right)) as [EL|]; [|discriminate].
  cbn [negb]. destruct (rev L) as [|x l] eqn:Er; [apply rev_eq_nil in Er; discriminate|].
  assert (Hr : exists r right', right = r :: right').
  { destruct right; [|eauto]. rewrite rot_nil in EL. discriminate. }
  destruct Hr as (r & right' & ->). cbn [combine enum foldM].
  assert (x = rot_atom 1 r).
  { rewrite rot_p1 in EL. rewrite EL, rev_involutive in Er. cbn in Er. congruence. }
  subst x. unfold mk_cup, cup_adjoint. rewrite rot_single.
  destruct (ty_eqb_spec [rot_atom 1 r] [rot_atom (-1) r]) as [H|]; [|reflexivity].
  exfalso. inversion H. lia.
Qed.
Lemma caps_reversed_compound a b left right : caps (a :: b :: left) right true = Err ValueError.
Proof.
  unfold caps. set (L := a :: b :: left).
  destruct (cap_adjoint L right true) eqn:E; [|reflexivity].
  cbn [cap_adjoint] in E. destruct (ty_eqb_spec L (rot (-1) right)) as [EL|]; [|discriminate].
  cbn [negb]. rewrite rot_m1 in EL. 
  destruct (rev right) as [|r l] eqn:Er.
  - apply rev_eq_nil in Er. subst. discriminate.
  - rewrite <- map_rev, Er in EL. subst L. inversion EL. subst a.
    cbn [combine enum foldM]. unfold mk_cap, cap_adjoint. rewrite rot_single.
    destruct (ty_eqb_spec [rot_atom (-1) r] [rot_atom 1 r]) as [H|]; [|reflexivity].
    exfalso. inversion H. lia.
Qed.
(** reversed on atomic types *)
Lemma cups_reversed_atomic r : cups [rot_atom 1 r] [r] true = Ok (to_diag (Cup (rot_atom 1 r) r true)).
Proof. cbn. unfold mk_cup, cup_adjoint. now rewrite rot_single, ty_eqb_refl. Qed.
Lemma caps_reversed_atomic r : caps [rot_atom (-1) r] [r] true = Ok (to_diag (Cap (rot_atom (-1) r) r true)).
Proof. cbn. unfold mk_cap, cap_adjoint. now rewrite rot_single, ty_eqb_refl. Qed.

(** ** combinators *)
Lemma fa_typed left right : exists d, d_fa left right = Ok d /\ typed d (left ++ rot (-1) right ++ right) left.
Proof.
  unfold d_fa. destruct (cups_typed right) as (c & -> & T). eexists. split; [reflexivity|].
  pose proof (typed_tensor (typed_id left) T) as H. now rewrite app_nil_r in H.
Qed.
Lemma ba_typed left right : exists d, d_ba left right = Ok d /\ typed d (left ++ rot 1 left ++ right) right.
Proof.
  unfold d_ba. destruct (cups_typed_l left) as (c & -> & T). eexists. split; [reflexivity|].
  rewrite tensor_list_fold. cbn [fold_left]. rewrite tensor_id_l.
  pose proof (typed_tensor T (typed_id right)) as H. now rewrite <- app_assoc in H.
Qed.
Lemma fc_typed left mid right : exists d, d_fc left mid right = Ok d /\
  typed d (left ++ rot (-1) mid ++ mid ++ rot (-1) right) (left ++ rot (-1) right).
Proof.
  unfold d_fc. destruct (cups_typed mid) as (c & -> & T). eexists. split; [reflexivity|].
  pose proof (typed_tensor (typed_tensor (typed_id left) T) (typed_id (rot (-1) right))) as H.
  now rewrite app_nil_r, <- !app_assoc in H.
Qed.
Lemma bc_typed left mid right : exists d, d_bc left mid right = Ok d /\
  typed d (rot 1 left ++ mid ++ rot 1 mid ++ right) (rot 1 left ++ right).
Proof.
  unfold d_bc. destruct (cups_typed_l mid) as (c & -> & T). eexists. split; [reflexivity|].
  pose proof (typed_tensor (typed_tensor (typed_id (rot 1 left)) T) (typed_id right)) as H.
  now rewrite app_nil_r, <- !app_assoc in H.
Qed.
Lemma swap_typed left right : exists d, swap left right = Ok d /\ typed d (left ++ right) (right ++ left).
Proof. destruct (swap_spec left right) as (d & E & T & _). eauto. Qed.
Lemma fx_typed left mid right : exists d, d_fx left mid right = Ok d /\
  typed d (left ++ rot (-1) mid ++ rot 1 right ++ mid) (rot 1 right ++ left).
Proof.
  unfold d_fx. destruct (swap_typed (rot (-1) mid) (rot 1 right)) as (s1 & -> & T1).
  destruct (swap_typed left (rot 1 right)) as (s2 & -> & T2).
  destruct (cups_typed mid) as (c & -> & T). cbn [bind].
  apply typed_then with (s := left ++ (rot 1 right ++ rot (-1) mid) ++ mid).
  - pose proof (typed_tensor (typed_tensor (typed_id left) T1) (typed_id mid)) as H.
    now rewrite <- !app_assoc in *.
  - pose proof (typed_tensor T2 T) as H. now rewrite app_nil_r, <- !app_assoc in *.
Qed.
Lemma bx_typed left mid right : exists d, d_bx left mid right = Ok d /\
  typed d (mid ++ rot (-1) left ++ rot 1 mid ++ right) (right ++ rot (-1) left).
Proof.
  unfold d_bx. destruct (swap_typed (rot (-1) left) (rot 1 mid)) as (s1 & -> & T1).
  destruct (swap_typed (rot (-1) left) right) as (s2 & -> & T2).
  destruct (cups_typed_l mid) as (c & -> & T). cbn [bind].
  apply typed_then with (s := mid ++ (rot 1 mid ++ rot (-1) left) ++ right).
  - pose proof (typed_tensor (typed_tensor (typed_id mid) T1) (typed_id right)) as H.
    now rewrite <- !app_assoc in *.
  - pose proof (typed_tensor T T2) as H. now rewrite <- !app_assoc in *.
Qed.

(** ** transpose / curry *)
Lemma transpose_l_typed d s t : typed d s t ->
  exists d', transpose d true = Ok d' /\ typed d' (rot (-1) t) (rot (-1) s).
Proof.
  intro T. pose proof T as (W & <- & <-). unfold transpose.
  destruct (caps_typed_l (dom d)) as (ca & -> & Tca). destruct (cups_typed (cod d)) as (cu & -> & Tcu).
  cbn [bind].
  set (s := dom d) in *. set (t := cod d) in *.
  destruct (@typed_then (tensor (id (rot (-1) t)) ca) (tensor (tensor (id (rot (-1) t)) d) (id (rot (-1) s)))
     (rot (-1) t) (rot (-1) t ++ s ++ rot (-1) s) (rot (-1) t ++ t ++ rot (-1) s)) as (x & -> & Tx).
  - pose proof (typed_tensor (typed_id (rot (-1) t)) Tca) as H. now rewrite app_nil_r in H.
  - pose proof (typed_tensor (typed_tensor (typed_id (rot (-1) t)) T) (typed_id (rot (-1) s))) as H.
    now rewrite <- !app_assoc in H.
  - cbn [bind]. eapply typed_then; [exact Tx|].
    pose proof (typed_tensor Tcu (typed_id (rot (-1) s))) as H. now rewrite <- app_assoc in H.
Qed.
Lemma transpose_r_typed d s t : typed d s t ->
  exists d', transpose d false = Ok d' /\ typed d' (rot 1 t) (rot 1 s).
Proof.
  intro T. pose proof T as (W & <- & <-). unfold transpose.
  destruct (caps_typed (dom d)) as (ca & -> & Tca). destruct (cups_typed_l (cod d)) as (cu & -> & Tcu).
  cbn [bind].
  set (s := dom d) in *. set (t := cod d) in *.
  destruct (@typed_then (tensor ca (id (rot 1 t))) (tensor (tensor (id (rot 1 s)) d) (id (rot 1 t)))
     (rot 1 t) (rot 1 s ++ s ++ rot 1 t) (rot 1 s ++ t ++ rot 1 t)) as (x & -> & Tx).
  - pose proof (typed_tensor Tca (typed_id (rot 1 t))) as H. now rewrite <- app_assoc in H.
  - pose proof (typed_tensor (typed_tensor (typed_id (rot 1 s)) T) (typed_id (rot 1 t))) as H.
    now rewrite <- !app_assoc in H.
  - cbn [bind]. eapply typed_then; [exact Tx|].
    pose proof (typed_tensor (typed_id (rot 1 s)) Tcu) as H. now rewrite app_nil_r in H.
Qed.

Lemma curry_left_typed d base expo t : typed d (base ++ expo) t -> expo <> [] ->
  exists d', curry d (Z.of_nat (List.length expo)) true = Ok d' /\ typed d' base (t ++ rot (-1) expo).
Proof.
  intros T Hne. pose proof T as (W & D & C). unfold curry.
  assert (Hl : 0 < List.length expo) by (destruct expo; cbn; [congruence|lia]).
  rewrite py_slice_stop, py_slice_start, adj_neg by lia. rewrite Z.opp_involutive, Nat2Z.id.
  rewrite D, app_length. replace (List.length base + List.length expo - List.length expo) with (List.length base) by lia.
  rewrite firstn_app, skipn_app, Nat.sub_diag, firstn_all, skipn_all. cbn [firstn skipn app].
  rewrite app_nil_r.
  destruct (caps_typed_l expo) as (ca & -> & Tca). cbn [bind].
  eapply typed_then.
  - pose proof (typed_tensor (typed_id base) Tca) as H. rewrite app_nil_r in H. exact H.
  - pose proof (typed_tensor T (typed_id (rot (-1) expo))) as H. now rewrite <- app_assoc in H.
Qed.
Lemma curry_right_typed d base expo t : typed d (expo ++ base) t ->
  exists d', curry d (Z.of_nat (List.length expo)) false = Ok d' /\ typed d' base (rot 1 expo ++ t).
Proof.
  intros T. pose proof T as (W & D & C). unfold curry.
  rewrite py_slice_stop_pos, py_slice_start_pos by lia. rewrite Nat2Z.id.
  rewrite D. rewrite firstn_app, skipn_app, Nat.sub_diag, firstn_all, skipn_all. cbn [firstn skipn app].
  rewrite app_nil_r.
  destruct (caps_typed expo) as (ca & -> & Tca). cbn [bind].
  eapply typed_then.
  - pose proof (typed_tensor Tca (typed_id base)) as H. exact H.
  - pose proof (typed_tensor (typed_id (rot 1 expo)) T) as H. now rewrite <- app_assoc.
Qed.
(** [curry(0, left=True)] curries the whole domain instead of nothing *)
Lemma curry_left_zero d s t : typed d s t ->
  exists d', curry d 0 true = Ok d' /\ typed d' [] (t ++ rot (-1) s).
Proof.
  intros T. pose proof T as (W & D & C). unfold curry. cbn [Z.opp].
  rewrite py_slice_stop_pos, py_slice_start_pos by lia. cbn [Z.to_nat firstn skipn]. rewrite D.
  destruct (caps_typed_l s) as (ca & -> & Tca). cbn [bind].
  eapply typed_then.
  - pose proof (typed_tensor (typed_id []) Tca) as H. exact H.
  - pose proof (typed_tensor T (typed_id (rot (-1) s))) as H. exact H.
Qed.
