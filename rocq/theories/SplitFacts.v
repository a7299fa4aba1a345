(** Tensor splitting (proofs only). *)
From Verif Require Import PyBase PyFacts TyModel TyFacts DiagModel DiagSpec DiagFacts DiagRot DiagPerm DiagCups DiagMisc DiagKinds BoxEq FunctorModel FunctorSpec FunctorCache FunctorFacts RewModel RewFacts AnsatzModel AnsatzNameModel SplitModel SplitSpec.
Close Scope string_scope. Set Implicit Arguments. Unset Strict Implicit.
Definition small (m : nat) (b : box) : Prop := is_wiring b \/ List.length (b_dom b) + List.length (b_cod b) <= m.
Lemma small_rotate m z b : small m b -> small m (b_rotate z b).
Proof.
  intros [H|H]; [left|right].
  - destruct b; try contradiction; cbn; try destruct (Z.odd z); exact I.
  - rewrite b_dom_rotate, b_cod_rotate, !rot_length. exact H.
Qed.
Lemma small_dagger m b : small m b -> small m (b_dagger b).
Proof. intros H. destruct b; try (left; exact I); destruct H as [[]|H]; right; cbn in *; unfold b_dom, b_cod in *; lia. Qed.
Lemma kinds_rotate m z d : kinds (small m) d -> kinds (small m) (d_rotate z d).
Proof.
  unfold kinds, boxes. cbn. rewrite !map_map, !Forall_map. apply Forall_impl. intros x H. rewrite l_box_rotate. now apply small_rotate.
Qed.
Lemma kinds_dagger m d : wf d -> kinds (small m) d -> kinds (small m) (d_dagger d).
Proof.
  intros W. rewrite (d_dagger_eq W). unfold kinds, boxes. cbn. rewrite map_map, map_rev, !Forall_map. intros H. apply Forall_map, Forall_rev in H.
  rewrite <- map_rev, Forall_map in H. rewrite <- map_rev, Forall_map. eapply Forall_impl; [|exact H]. intros [[l b] r] Hb. now apply small_dagger.
Qed.
(** ** functors that are the identity on objects *)
Section F.
  Variables (car : box -> res diagram) (m : nat).
  Notation ob := (fun n : string => [(n, 0%Z)] : ty).
  Definition keeps (x : box) : Prop := exists d, car x = Ok d /\ typed d (b_dom x) (b_cod x) /\ kinds (small m) d.
  Lemma Hid n : id_ob n = Ok (ob n). Proof. reflexivity. Qed.
  Lemma Fa_id a : Fa ob a = [a]. Proof. destruct a as [n z]. unfold Fa, rot, rot_atom. cbn. now destruct (Z.odd z). Qed.
  Lemma Fo_id t : Fo ob t = t. Proof. unfold Fo. induction t; [reflexivity|]. cbn [flat_map]. now rewrite Fa_id, IHt. Qed.
  Lemma rev_ok_id b : rev_ok ob b. Proof. induction b; cbn; auto; destruct rv; auto. Qed.
  Lemma respects_keeps x : keeps x -> respects ob car x.
  Proof. intros (d & E & T & _). exists d. rewrite !Fo_id. auto. Qed.
  Lemma box_small b : box_ok b -> frameless b -> All keeps (basics b) -> exists x, F_box id_ob car b = Ok x /\ typed x (b_dom b) (b_cod b) /\ kinds (small m) x.
  Proof.
    intros Ho Hf Hk. destruct (@box_typed id_ob car ob Hid b Ho (rev_ok_id b)) as (x & E & T). { eapply All_impl; [|exact Hk]. apply respects_keeps. }
    rewrite !Fo_id in T. exists x. split; auto. split; auto. revert x E T. induction b; intros x E T; try contradiction Hf.
    - assert (A := @image_of_basic id_ob car ob Hid (small m) (Box name bdom bcod z) x (fun z b => @small_rotate m z b) I). unfold kinds, boxes. rewrite Forall_map, <- All_Forall. apply A; auto. eapply All_impl; [|exact Hk]. intros y (d & Ed & _ & K) d' Ed'. rewrite Ed in Ed'. inversion Ed'; subst. apply All_Forall. unfold kinds, boxes in K. now rewrite Forall_map in K.
    - assert (A := @image_of_basic id_ob car ob Hid (small m) (Word name wcod z) x (fun z b => @small_rotate m z b) I). unfold kinds, boxes. rewrite Forall_map, <- All_Forall. apply A; auto. eapply All_impl; [|exact Hk]. intros y (d & Ed & _ & K) d' Ed'. rewrite Ed in Ed'. inversion Ed'; subst. apply All_Forall. unfold kinds, boxes in K. now rewrite Forall_map in K.
    - cbn [F_box] in E. apply (F_check_inv (ob := ob) Hid) in E as [E _]. rewrite !(F_ty_eq (ob := ob) Hid) in E. cbn [bind] in E. rewrite !Fo_id in E. cbn in E. unfold mk_cap in E. destruct cap_adjoint; [|discriminate]. inversion E. repeat constructor.
    - cbn [F_box] in E. apply (F_check_inv (ob := ob) Hid) in E as [E _]. rewrite !(F_ty_eq (ob := ob) Hid) in E. cbn [bind] in E. rewrite !Fo_id in E. cbn in E. unfold mk_cup in E. destruct cup_adjoint; [|discriminate]. inversion E. repeat constructor.
    - cbn [F_box] in E. apply (F_check_inv (ob := ob) Hid) in E as [E _]. rewrite !(F_ty_eq (ob := ob) Hid) in E. cbn [bind] in E. rewrite !Fo_id in E. cbn in E. inversion E. repeat constructor.
    - cbn [F_box] in E. apply (F_check_inv (ob := ob) Hid) in E as [E _]. rewrite !(F_ty_eq (ob := ob) Hid) in E. cbn [bind] in E. rewrite !Fo_id in E. cbn in E. inversion E. repeat constructor.
    - cbn [F_box] in E. apply (F_check_inv (ob := ob) Hid) in E as [E _]. destruct (@box_typed id_ob car ob Hid b Ho (rev_ok_id b)) as (y & Ey & Ty). { eapply All_impl; [|exact Hk]. apply respects_keeps. } rewrite Ey in E. cbn in E. inversion E. rewrite !Fo_id in Ty. apply kinds_dagger; [apply Ty|]. apply IHb; auto.
  Qed.
  Lemma diag_small d : wf d -> All (fun x => frameless (l_box x) /\ All keeps (basics (l_box x))) (layers d) -> exists e, F_diag id_ob car d = Ok e /\ typed e (dom d) (cod d) /\ kinds (small m) e.
  Proof.
    intros W H. destruct (@diag_typed id_ob car ob Hid d W) as (e & E & T). { eapply All_impl; [|exact H]. intros x [_ Hx]. split; [apply rev_ok_id|]. eapply All_impl; [|exact Hx]. apply respects_keeps. }
    rewrite !Fo_id in T. exists e. split; auto. split; auto. destruct W as [C Ho]. rewrite (F_diag_eq (ob := ob) car Hid C) in E.
    assert (G : forall ls xs, All (fun x => box_ok (l_box x)) ls -> All (fun x => frameless (l_box x) /\ All keeps (basics (l_box x))) ls -> mapM (F_layer id_ob car ob) ls = Ok xs -> Forall (small m) (map l_box (List.concat xs))).
    { induction ls as [|[[l b] r] ls IH]; intros xs Ho' H' E'; cbn [mapM] in E'; [inversion E'; constructor|]. cbn in Ho', H'. destruct Ho' as [Ho1 Ho2], H' as [[F1 K1] H2]. cbn [F_layer] in E'.
      destruct (box_small Ho1 F1 K1) as (y & Ey & _ & Ky). rewrite Ey in E'. cbn [rmap bind] in E'. destruct (mapM _ ls) as [ys|] eqn:Es; [|discriminate]. cbn in E'. inversion E'; subst. cbn [List.concat]. rewrite map_app. apply Forall_app. split; [|now apply IH].
      rewrite map_map. unfold kinds, boxes in Ky. rewrite Forall_map in *. eapply Forall_impl; [|exact Ky]. intros [[l' b'] r']. auto. }
    destruct (mapM (F_layer id_ob car ob) (layers d)) as [xs|] eqn:Ex; [|discriminate]. cbn in E. inversion E; subst. unfold kinds, boxes. cbn. eapply G; eauto.
  Qed.
End F.
(** ** tensors of lists *)
Lemma typed_list ds : Forall wf ds -> typed (tensor_list (id []) ds) (List.concat (map dom ds)) (List.concat (map cod ds)).
Proof. intros F. split; [apply wf_tensor_list; [apply wf_id|auto]|]. now rewrite dom_tensor_list, cod_tensor_list. Qed.
Lemma wf_word w : wf (word_diag w). Proof. now apply wf_to_diag. Qed.
Lemma words_typed ws : typed (tensor_list (id []) (map word_diag ws)) [] (flat_map snd ws).
Proof.
  assert (F : Forall wf (map word_diag ws)) by (apply Forall_map, Forall_forall; intros; apply wf_word). destruct (typed_list F) as (W & D & C). split; auto. rewrite D, C, !map_map. split; [|now rewrite flat_map_concat_map].
  clear. induction ws; cbn; auto.
Qed.
Lemma kinds_list P ds : Forall (kinds P) ds -> kinds P (tensor_list (id []) ds).
Proof. intros F. unfold kinds. rewrite boxes_tensor_all. induction F; cbn; [constructor|]. now apply Forall_app. Qed.
Lemma slice_1 X (l : list X) : py_slice l (Some 1%Z) None = List.tl l.
Proof.
  unfold py_slice, adj. cbn. destruct l as [|x l]; [reflexivity|]. cbn [List.length List.tl]. change (Nat.min (Pos.to_nat 1) (S (List.length l))) with 1. cbn. rewrite Nat.sub_0_r. apply firstn_all.
Qed.
Lemma slice_m1 X (l : list X) : py_slice l None (Some (-1)%Z) = removelast l.
Proof. unfold py_slice, adj. cbn [Nat.sub skipn Z.ltb Z.compare]. rewrite removelast_firstn_len. rewrite Nat.sub_0_r. f_equal. lia. Qed.
Lemma slice_mid X (a b : X) (l : list X) : py_slice (a :: l ++ [b]) (Some 1%Z) (Some (-1)%Z) = l.
Proof.
  unfold py_slice, adj. cbn [Z.ltb Z.compare]. cbn [List.length]. rewrite app_length. cbn [List.length]. replace (Z.to_nat (Z.max _ _)) with (S (List.length l)) by lia. replace (Nat.min _ _) with 1 by lia. cbn. rewrite Nat.sub_0_r. rewrite firstn_app, firstn_all, Nat.sub_diag. cbn. apply app_nil_r.
Qed.
Lemma slice_nat X (l : list X) a b : py_slice l (zn a) (zn b) = firstn (b - a) (skipn a l).
Proof.
  unfold py_slice, zn, adj. replace (Z.of_nat a <? 0)%Z with false by (symmetry; apply Z.ltb_ge; lia). replace (Z.of_nat b <? 0)%Z with false by (symmetry; apply Z.ltb_ge; lia). rewrite !Nat2Z.id.
  destruct (Nat.le_gt_cases a (List.length l)).
  - replace (Nat.min a (List.length l)) with a by lia. destruct (Nat.le_gt_cases b (List.length l)).
    + f_equal. lia.
    + rewrite !firstn_all2; auto; rewrite skipn_length; lia.
  - rewrite !skipn_all2 by lia. now rewrite !firstn_nil.
Qed.
Lemma removelast_snoc X (l : list X) x : removelast (l ++ [x]) = l. Proof. apply removelast_last. Qed.
Lemma upd_last_snoc X (f : X -> X) l x : upd_last f (l ++ [x]) = l ++ [f x].
Proof. unfold upd_last. rewrite rev_app_distr. cbn. now rewrite rev_involutive. Qed.
(** ** matrix product states *)
Section M.
  Variables (X : Type) (b br : X).
  Notation wrapped s := (br :: s ++ [b]).
  Lemma wrap_shift cs : br :: flat_map (fun s => s ++ [b; br]) cs = flat_map (fun s => wrapped s) cs ++ [br].
  Proof. induction cs as [|s cs IH]; [reflexivity|]. cbn [flat_map app]. f_equal. rewrite <- !app_assoc. f_equal. cbn. f_equal. exact IH. Qed.
End M.
Lemma concat_chunks X (l : list X) step k : List.concat (map (fun i => firstn step (skipn (i * step) l)) (seq 0 k)) = firstn (k * step) l.
Proof.
  induction k; [reflexivity|]. rewrite seq_S, map_app, concat_app, IHk. cbn [map List.concat Nat.add]. rewrite app_nil_r. replace (S k * step) with (k * step + step) by lia.
  rewrite <- (firstn_skipn (k * step) l) at 3. rewrite firstn_app, firstn_firstn. replace (Nat.min (k * step + step) (k * step)) with (k * step) by lia. f_equal. destruct (Nat.le_gt_cases (k * step) (List.length l)).
  - f_equal. rewrite firstn_length. lia.
  - rewrite !skipn_all2 by lia. now rewrite !firstn_nil.
Qed.
Lemma chunks_cover n step : 0 < step -> n <= ((n + step - 1) / step) * step.
Proof. intros H. pose proof (Nat.div_mod (n + step - 1) step ltac:(lia)). pose proof (Nat.mod_upper_bound (n + step - 1) step ltac:(lia)). nia. Qed.
Lemma enum_map X Y (f : X -> Y) l : forall k, enum k (map f l) = map (fun p => (fst p, f (snd p))) (enum k l).
Proof. induction l; intros; cbn; congruence. Qed.
Lemma enum_seq n : forall k, enum k (seq k n) = map (fun i => (i, i)) (seq k n).
Proof. induction n; intros; cbn; [reflexivity|]. now rewrite IHn. Qed.
Section MPS.
  Variables (name : string) (c : ty) (order : nat).
  Hypotheses (Ho : 3 <= order) (Hc : order < List.length c).
  Notation step := (order - 2). Notation B := bond. Notation Br := (rot_atom 1 bond).
  Definition chunks : list ty := map (fun i => firstn step (skipn (i * step) c)) (seq 0 ((List.length c + step - 1) / step)).
  Lemma chunks_c : List.concat chunks = c.
  Proof. unfold chunks. rewrite concat_chunks. apply firstn_all2. apply chunks_cover. lia. Qed.
  Lemma chunks_len s : In s chunks -> List.length s <= step.
  Proof. intros H. apply in_map_iff in H as (i & <- & _). rewrite firstn_length. lia. Qed.
  Lemma chunks_two : exists s s' cs, chunks = s :: cs ++ [s'].
  Proof.
    unfold chunks. assert (H : 2 <= (List.length c + step - 1) / step). { apply Nat.div_le_lower_bound; lia. }
    destruct ((List.length c + step - 1) / step) as [|[|n]]; try lia. rewrite seq_S. cbn [seq map]. rewrite map_app. cbn [map app]. eauto.
  Qed.
  Definition mwords : list (string * ty) := map (fun i => (part_name name i, Br :: firstn step (skipn (i * step) c) ++ [B])) (seq 0 ((List.length c + step - 1) / step)).
  Lemma mwords_eq : map (fun '(i, start) => (part_name name i, [rot_atom 1 bond] ++ py_slice c (zn start) (zn (start + step)) ++ [bond])) (enum 0 (range0 (List.length c) step)) = mwords.
  Proof.
    unfold range0, mwords. rewrite enum_map, enum_seq, !map_map. apply map_ext. intros i. cbn [fst snd]. rewrite slice_nat. replace (i * step + step - i * step) with step by lia. reflexivity.
  Qed.
  Lemma mwords_snd : map snd mwords = map (fun s => Br :: s ++ [B]) chunks.
  Proof. unfold mwords, chunks. rewrite !map_map. reflexivity. Qed.
  Lemma upd_map X Y (f : Y -> Y) (g : X -> X) (h : X -> Y) : (forall x, h (g x) = f (h x)) -> forall l, map h (upd_first g l) = upd_first f (map h l) /\ map h (upd_last g l) = upd_last f (map h l).
  Proof.
    intros E l. assert (F : forall l, map h (upd_first g l) = upd_first f (map h l)) by (intros [|x l']; cbn; rewrite ?E; auto). split; auto. unfold upd_last. now rewrite map_rev, F, map_rev.
  Qed.
  Definition isw (b : box) : bool := match b with Word _ _ _ => true | _ => false end.
  Lemma upd_fst X Y (f : X * Y -> X * Y) l : (forall x, fst (f x) = fst x) -> map fst (upd_first f l) = map fst l /\ map fst (upd_last f l) = map fst l.
  Proof.
    intros E. assert (F : forall l, map fst (upd_first f l) = map fst l) by (intros [|x l']; cbn; rewrite ?E; auto). split; auto. unfold upd_last. now rewrite map_rev, F, map_rev, rev_involutive.
  Qed.
  Lemma mps_full : exists d w2 s s' cs, (mps_split name c order = Ok d /\ typed d [] c /\ kinds (small order) d) /\ chunks = s :: cs ++ [s'] /\
    map snd w2 = ((s ++ [B]) :: map (fun s => Br :: s ++ [B]) cs ++ [Br :: s']) /\ map fst w2 = map (part_name name) (seq 0 (List.length w2)) /\
    filter isw (boxes d) = map (fun w => Word (fst w) (snd w) 0) w2.
  Proof.
    unfold mps_split. cbv zeta. rewrite mwords_eq. destruct (chunks_two) as (s & s' & cs & Ech).
    replace (cups [B] [Br] false) with (Ok (to_diag (Cup B Br false))) by reflexivity. cbn [bind]. set (cup := to_diag (Cup B Br false)).
    assert (Ecs : flat_map (fun w : string * list atom => [id (py_slice (snd w) (Some 1%Z) (Some (-1)%Z)); cup]) mwords = flat_map (fun s => [id s; cup]) chunks).
    { unfold mwords, chunks. rewrite !flat_map_concat_map, !map_map. f_equal. apply map_ext. intros i. cbn [snd]. now rewrite slice_mid. }
    rewrite Ecs. set (w1 := @upd_first (string * list atom) (fun w => (fst w, py_slice (snd w) (Some 1%Z) None)) mwords).
    set (w2 := @upd_last (string * list atom) (fun w => (fst w, py_slice (snd w) None (Some (-1)%Z))) w1).
    assert (Ew : map snd w2 = (s ++ [B]) :: map (fun s => Br :: s ++ [B]) cs ++ [Br :: s']).
    { unfold w2. rewrite (proj2 (@upd_map _ _ (fun t : list atom => py_slice t None (Some (-1)%Z)) (fun w : string * list atom => (fst w, py_slice (snd w) None (Some (-1)%Z))) snd (fun x => eq_refl) w1)). unfold w1. rewrite (proj1 (@upd_map _ _ (fun t : list atom => py_slice t (Some 1%Z) None) (fun w : string * list atom => (fst w, py_slice (snd w) (Some 1%Z) None)) snd (fun x => eq_refl) mwords)).
      assert (Em : @map (string * list atom) (list atom) snd mwords = (Br :: s ++ [B]) :: map (fun s => Br :: s ++ [B]) (cs ++ [s'])) by (etransitivity; [exact mwords_snd|now rewrite Ech]).
      rewrite Em. cbn [upd_first]. rewrite slice_1. cbn [List.tl]. rewrite map_app. cbn [map]. rewrite app_comm_cons, upd_last_snoc. rewrite slice_m1. change (Br :: s' ++ [B]) with ((Br :: s') ++ [B]). rewrite removelast_snoc. reflexivity. }
    assert (Nm : match mwords with [] => Err IndexError | _ => d_then (tensor_list (id []) (map word_diag w2)) (tensor_list (id []) (py_slice (flat_map (fun s0 : ty => [id s0; cup]) chunks) None (Some (-1)%Z))) end = d_then (tensor_list (id []) (map word_diag w2)) (tensor_list (id []) (py_slice (flat_map (fun s0 : ty => [id s0; cup]) chunks) None (Some (-1)%Z)))).
    { assert (map snd mwords <> []) by (rewrite mwords_snd, Ech; discriminate). destruct mwords; [contradiction|reflexivity]. }
    enough (G : exists d, (d_then (tensor_list (id []) (map word_diag w2)) (tensor_list (id []) (py_slice (flat_map (fun s0 : ty => [id s0; cup]) chunks) None (Some (-1)%Z))) = Ok d /\ typed d [] c /\ kinds (small order) d) /\ filter isw (boxes d) = map (fun w => Word (fst w) (snd w) 0) w2).
    { destruct G as (d & (E & R) & Fi). exists d, w2, s, s', cs. split; [split; [|exact R]; etransitivity; [exact Nm|exact E]|]. split; [exact Ech|]. split; [exact Ew|]. split; [|exact Fi].
      assert (N : map fst w2 = map fst mwords). { unfold w2, w1. etransitivity; [refine (proj2 (upd_fst _ _)); reflexivity|]. refine (proj1 (upd_fst _ _)). reflexivity. }
      rewrite <- (map_length fst w2), N, map_length. unfold mwords. rewrite map_map, map_length, seq_length. reflexivity. }
    clear Nm. rewrite slice_m1, Ech.
    assert (Er : removelast (flat_map (fun s0 : ty => [id s0; cup]) (s :: cs ++ [s'])) = flat_map (fun s0 => [id s0; cup]) (s :: cs) ++ [id s']).
    { change (s :: cs ++ [s']) with ((s :: cs) ++ [s']). rewrite flat_map_app. change (flat_map (fun s0 : ty => [id s0; cup]) [s']) with ([id s'] ++ [cup]). rewrite app_assoc. apply removelast_snoc. }
    rewrite Er. set (right := flat_map _ (s :: cs) ++ [id s']).
    assert (Fr : Forall wf right). { unfold right. apply Forall_app. split; [|repeat constructor; apply wf_id]. apply Forall_flat_map, Forall_forall. intros x _. repeat constructor; apply wf_id. }
    assert (Tw := words_typed w2). rewrite flat_map_concat_map, Ew in Tw. assert (Tr := typed_list Fr).
    assert (Ed : List.concat (map dom right) = List.concat ((s ++ [B]) :: map (fun s => Br :: s ++ [B]) cs ++ [Br :: s'])).
    { unfold right. rewrite map_app, concat_app. cbn [map List.concat dom id]. rewrite concat_app. cbn [List.concat]. rewrite !app_nil_r.
      assert (G : forall t us, List.concat (map dom (flat_map (fun s0 : ty => [id s0; cup]) (t :: us))) = ((t ++ [B]) ++ List.concat (map (fun s => Br :: s ++ [B]) us)) ++ [Br]).
      { intros t us. revert t. induction us as [|u us IH]; intros t; [cbn; now rewrite !app_nil_r, <- app_assoc|]. change (flat_map (fun s0 : ty => [id s0; cup]) (t :: u :: us)) with ([id t; cup] ++ flat_map (fun s0 : ty => [id s0; cup]) (u :: us)). rewrite map_app, concat_app, IH. cbn. rewrite <- !app_assoc. cbn. rewrite <- !app_assoc. reflexivity. }
      rewrite G, <- !app_assoc. reflexivity. }
    assert (Ec : List.concat (map cod right) = c).
    { assert (G : forall us, List.concat (map cod (flat_map (fun s0 : ty => [id s0; cup]) us)) = List.concat us) by (induction us as [|u us IH]; [reflexivity|cbn; now rewrite IH]).
      rewrite <- chunks_c, Ech. unfold right. rewrite map_app, concat_app, G. change (s :: cs ++ [s']) with ((s :: cs) ++ [s']). now rewrite concat_app. }
    rewrite Ed, Ec in Tr. destruct (typed_then Tw Tr) as (d & E & T). exists d.
    split; cycle 1.
    { rewrite (boxes_then E), !boxes_tensor_all, filter_app, map_map. replace (filter isw (List.concat (map boxes right))) with (@nil box).
      - rewrite app_nil_r. clear. induction w2 as [|w l IH]; [reflexivity|]. cbn. now rewrite <- IH.
      - assert (G : forall us, filter isw (List.concat (map boxes (flat_map (fun s0 : ty => [id s0; cup]) us))) = []) by (induction us; [reflexivity|cbn; auto]).
        unfold right. rewrite map_app, concat_app, filter_app, G. reflexivity. }
    split; auto. split; auto.
    unfold kinds. rewrite (boxes_then E). apply Forall_app. split.
    - apply (@kinds_list (small order)). apply Forall_map, Forall_forall. intros w Hw. unfold kinds, word_diag, boxes. cbn [to_diag layers map l_box fst snd]. constructor; [|constructor]. right. cbn.
      assert (Hs : In (snd w) (map snd w2)) by now apply in_map. rewrite Ew in Hs. assert (L : forall x, In x (s :: cs ++ [s']) -> List.length x <= step) by (intros; apply chunks_len; now rewrite Ech).
      destruct Hs as [<-|Hs]; [rewrite app_length; cbn; specialize (L s (or_introl eq_refl)); lia|]. apply in_app_or in Hs as [Hs|[<-|[]]].
      + apply in_map_iff in Hs as (x & <- & Hx). cbn. rewrite app_length. cbn. specialize (L x (or_intror (in_or_app _ _ _ (or_introl Hx)))). lia.
      + cbn. assert (In s' (s :: cs ++ [s'])) by (right; apply in_or_app; right; left; reflexivity). specialize (L s' H). lia.
    - apply (@kinds_list (small order)). unfold right. apply Forall_app. split; [|repeat constructor]. apply Forall_flat_map, Forall_forall. intros x _. repeat constructor.
  Qed.
  Lemma mps_ok : exists d, mps_split name c order = Ok d /\ typed d [] c /\ kinds (small order) d.
  Proof. destruct mps_full as (d & w2 & s & s' & cs & H & _). eauto. Qed.
  Lemma chunks_pos s : In s chunks -> 1 <= List.length s.
  Proof.
    intros H. apply in_map_iff in H as (i & <- & Hi). apply in_seq in Hi. rewrite firstn_length, skipn_length.
    pose proof (Nat.div_mod (List.length c + step - 1) step ltac:(lia)). pose proof (Nat.mod_upper_bound (List.length c + step - 1) step ltac:(lia)). nia.
  Qed.
  Lemma enum_combine X (l : list X) : forall k, enum k l = combine (seq k (List.length l)) l.
  Proof. induction l; intros; cbn; congruence. Qed.
  Lemma mps_pieces : exists d s s' cs, mps_split name c order = Ok d /\ c = s ++ List.concat cs ++ s' /\ Forall (fun p => 1 <= List.length p <= order - 2) (s :: cs ++ [s']) /\
    filter (fun b => match b with Word _ _ _ => true | _ => false end) (boxes d) =
      map (fun '(i, t) => Word (part_name name i) t 0) (enum 0 ((s ++ [bond]) :: map (fun p => rot_atom 1 bond :: p ++ [bond]) cs ++ [rot_atom 1 bond :: s'])).
  Proof.
    destruct mps_full as (d & w2 & s & s' & cs & (E & _) & Ech & Es & Ef & Fi). exists d, s, s', cs. split; auto. split.
    { rewrite <- chunks_c at 1. rewrite Ech. cbn. rewrite concat_app. cbn. now rewrite app_nil_r. } split.
    { apply Forall_forall. intros x Hx. assert (Hx' : In x chunks) by (rewrite Ech; exact Hx). split; [now apply chunks_pos|now apply chunks_len]. }
    etransitivity; [exact Fi|]. rewrite <- Es, enum_combine, map_length. clear - Ef. revert Ef. generalize 0. induction w2 as [|w l IH]; intros k Ef; [reflexivity|]. destruct w as [wn wt]. cbn in *. injection Ef as E1 E2. subst wn. f_equal. now apply IH.
  Qed.
End MPS.
(** ** spiders *)
Inductive chainw : ty -> list ty -> Prop :=
| cw1 a mid x : chainw (a :: mid ++ [x]) [a :: mid ++ [x]]
| cwS a mid x c' ws : chainw (x :: c') ws -> chainw (a :: mid ++ x :: c') ((a :: mid ++ [x]) :: ws).
Lemma two_ends X (l : list X) : 2 <= List.length l -> exists a mid x, l = a :: mid ++ [x].
Proof. intros H. destruct l as [|a l]; [cbn in H; lia|]. destruct (@exists_last _ l) as (mid & x & ->); [intros ->; cbn in H; lia|]. eauto. Qed.
Lemma chainw_ok step : 1 <= step -> forall k c, 1 <= k -> (k - 1) * step < List.length c - 1 <= k * step ->
  chainw c (map (fun i => firstn (step + 1) (skipn (i * step) c)) (seq 0 k)).
Proof.
  intros Hs. induction k as [|k IH]; intros c Hk Hc; [lia|]. destruct k as [|k].
  - cbn [seq map Nat.mul skipn]. rewrite firstn_all2 by lia. destruct (@two_ends _ c) as (a & mid & x & ->); [lia|]. constructor.
  - specialize (IH (skipn step c) ltac:(lia)). rewrite skipn_length in IH. specialize (IH ltac:(cbn [Nat.mul Nat.sub] in *; rewrite ?Nat.sub_0_r in *; lia)).
    change (seq 0 (S (S k))) with (0 :: seq 1 (S k)). rewrite <- seq_shift, map_cons, map_map. change (0 * step) with 0. cbn [skipn].
    assert (E : map (fun x => firstn (step + 1) (skipn (S x * step) c)) (seq 0 (S k)) = map (fun i => firstn (step + 1) (skipn (i * step) (skipn step c))) (seq 0 (S k))). { apply map_ext. intros i. rewrite skipn_skipn. reflexivity. }
    rewrite E.
    destruct (@two_ends _ (firstn (step + 1) c)) as (a & mid & x & Ew); [rewrite firstn_length; lia|].
    assert (L : List.length mid = step - 1). { assert (List.length (firstn (step + 1) c) = step + 1) by (rewrite firstn_length; lia). rewrite Ew in H. cbn in H. rewrite app_length in H. cbn in H. lia. }
    assert (Ex : exists c', skipn step c = x :: c' /\ c = a :: mid ++ x :: c').
    { exists (skipn (step + 1) c). assert (Ec := firstn_skipn (step + 1) c). rewrite Ew in Ec. cbn in Ec. rewrite <- app_assoc in Ec. cbn in Ec. split; [|congruence]. rewrite <- Ec at 1. destruct step as [|st]; [lia|]. cbn [skipn]. rewrite skipn_app, skipn_all2 by lia. replace (st - List.length mid) with 0 by lia. reflexivity. }
    destruct Ex as (c' & E1 & E2). rewrite Ew. rewrite E1 in *. rewrite E2 at 1. constructor. exact IH.
Qed.
Definition sp (w : ty) : list diagram := [id (py_slice w (Some 1%Z) (Some (-1)%Z)); match py_slice w (Some (-1)%Z) None with [x] => to_diag (Spider x 2 1) | _ => id [] end].
Lemma slice_last X (l : list X) x : py_slice (l ++ [x]) (Some (-1)%Z) None = [x].
Proof.
  unfold py_slice, adj. cbn [Z.ltb Z.compare]. rewrite app_length. cbn [List.length]. replace (Z.to_nat (Z.max _ _)) with (List.length l) by lia. rewrite skipn_app, skipn_all, Nat.sub_diag. cbn. replace (List.length l + 1 - List.length l) with 1 by lia. reflexivity.
Qed.
Lemma sp_eq a mid x : sp (a :: mid ++ [x]) = [id mid; to_diag (Spider x 2 1)].
Proof. unfold sp. rewrite slice_mid. change (a :: mid ++ [x]) with ((a :: mid) ++ [x]). now rewrite slice_last. Qed.
Lemma chainw_mapM c ws : chainw c ws -> mapM (fun w : ty => do s <- spider (py_slice w (Some (-1)%Z) None) 2 1; Ok [id (py_slice w (Some 1%Z) (Some (-1)%Z)); s]) ws = Ok (map sp ws).
Proof.
  induction 1; cbn [mapM map].
  - change (a :: mid ++ [x]) with ((a :: mid) ++ [x]) at 1. rewrite slice_last. cbn [spider bind]. now rewrite sp_eq, slice_mid.
  - change (a :: mid ++ [x]) with ((a :: mid) ++ [x]) at 1. rewrite slice_last. cbn [spider bind]. rewrite IHchainw. cbn [bind]. now rewrite sp_eq, slice_mid.
Qed.
Lemma chainw_parts m c ws : chainw c ws -> exists a pre x, List.concat (map sp ws) = pre ++ [to_diag (Spider x 2 1)] /\ Forall wf pre /\ Forall (kinds (small m)) pre
  /\ List.concat ws = a :: List.concat (map dom pre) ++ [x] /\ c = a :: List.concat (map cod pre) ++ [x].
Proof.
  induction 1.
  - exists a, [id mid], x. cbn [map List.concat]. rewrite sp_eq. cbn. rewrite !app_nil_r. repeat split; auto; repeat constructor; apply wf_id.
  - destruct IHchainw as (a' & pre & y & E & W & K & Ed & Ec). injection Ec as -> Ec. exists a, (id mid :: to_diag (Spider a' 2 1) :: pre), y. cbn [map List.concat]. rewrite sp_eq, E, Ed. repeat split.
    + constructor; [apply wf_id|]. constructor; [now apply wf_to_diag|auto].
    + constructor; [constructor|]. constructor; [repeat constructor|auto].
    + cbn. rewrite <- !app_assoc. cbn. reflexivity.
    + cbn. rewrite Ec, <- !app_assoc. reflexivity.
Qed.
Section SP.
  Variables (name : string) (c : ty) (order : nat).
  Hypotheses (Ho : 2 <= order) (Hc : order < List.length c).
  Notation step := (order - 1). Notation k := ((List.length c - 1 + step - 1) / step).
  Definition swords : list (string * ty) := map (fun i => (part_name name i, firstn (step + 1) (skipn (i * step) c))) (seq 0 k).
  Lemma spider_ok : exists d, spider_split name c order = Ok d /\ typed d [] c /\ kinds (small order) d.
  Proof.
    unfold spider_split. cbv zeta.
    assert (Ew : map (fun '(i, start) => (part_name name i, py_slice c (zn start) (zn (start + step + 1)))) (enum 0 (range0 (List.length c - 1) step)) = swords).
    { unfold range0, swords. rewrite enum_map, enum_seq, !map_map. apply map_ext. intros i. cbn [fst snd]. rewrite slice_nat. do 2 f_equal. lia. }
    rewrite Ew. set (ws := map (fun i => firstn (step + 1) (skipn (i * step) c)) (seq 0 k)).
    assert (Es : map snd swords = ws) by (unfold swords, ws; now rewrite map_map).
    assert (C : chainw c ws).
    { apply chainw_ok; [lia| |].
      - apply Nat.div_le_lower_bound; lia.
      - pose proof (Nat.div_mod (List.length c - 1 + step - 1) step ltac:(lia)). pose proof (Nat.mod_upper_bound (List.length c - 1 + step - 1) step ltac:(lia)). nia. }
    assert (Em : mapM (fun w : string * ty => do s <- spider (py_slice (snd w) (Some (-1)%Z) None) 2 1; Ok [id (py_slice (snd w) (Some 1%Z) (Some (-1)%Z)); s]) swords = Ok (map sp ws)).
    { rewrite <- (chainw_mapM C), <- Es. clear. induction swords as [|w l IH]; cbn [mapM map]; [reflexivity|]. rewrite IH. reflexivity. }
    match goal with |- context [bind ?x _] => replace x with (@Ok (list (list diagram)) (map sp ws)) by (symmetry; exact Em) end. cbn [bind].
    destruct (@chainw_parts order c ws C) as (a & pre & x & Ep & W & K & Ed & Ec). rewrite Ep.
    replace (py_slice c None (Some 1%Z)) with [a] by (rewrite Ec; reflexivity). rewrite app_comm_cons, upd_last_snoc. change (cod (to_diag (Spider x 2 1))) with [x].
    assert (Tw := words_typed swords). replace (flat_map snd swords) with (List.concat ws) in Tw by (symmetry; rewrite flat_map_concat_map; f_equal; exact Es). rewrite Ed in Tw.
    assert (Fr : Forall wf ((id [a] :: pre) ++ [id [x]])). { apply Forall_app. split; [constructor; [apply wf_id|auto]|repeat constructor; apply wf_id]. }
    assert (Tr := typed_list Fr). rewrite !map_app, !concat_app in Tr. cbn [map List.concat dom cod id app] in Tr. rewrite <- Ec in Tr.
    destruct (typed_then Tw Tr) as (d & E & T). exists d. split; auto. split; auto. unfold kinds. rewrite (boxes_then E). apply Forall_app. split.
    - apply (@kinds_list (small order)). apply Forall_map, Forall_forall. intros w Hw. unfold kinds, word_diag, boxes. cbn [to_diag layers map l_box fst snd]. constructor; [|constructor]. right. cbn.
      apply in_map_iff in Hw as (i & <- & _). cbn [snd]. rewrite firstn_length. lia.
    - apply (@kinds_list (small order)). constructor; [constructor|]. apply Forall_app. split; [auto|repeat constructor].
  Qed.
End SP.
(** ** the arrow map *)
Definition good_order (k : split_kind) (order : nat) : Prop := match k with MPS => 3 <= order | SpiderK => 2 <= order end.
Definition plain (b : box) : Prop := match b with Box _ _ _ z | Word _ _ z => z = 0%Z | _ => False end.
Lemma plain_dom b : plain b -> b_z b = 0%Z. Proof. destruct b; cbn; auto; contradiction. Qed.
Lemma box0_typed n d c : typed (to_diag (Box n d c 0)) d c. Proof. now apply typed_to_diag. Qed.
Section AR.
  Variables (k : split_kind) (order : nat) (lf : bool).
  Hypothesis Ho : good_order k order.
  Lemma ar_nodom f b : plain b -> b_dom b = [] -> keeps (split_ar k order lf (S f)) order b.
  Proof.
    intros P D. unfold keeps. cbn [split_ar]. rewrite D. cbn [List.length Nat.add]. destruct (Nat.leb_spec (List.length (b_cod b)) order) as [L|L].
    - eexists. split; [reflexivity|]. rewrite (plain_dom P). split; [apply box0_typed|]. unfold kinds, boxes. cbn. constructor; [|constructor]. right. exact L.
    - unfold collapse_matches. rewrite D. cbn [List.length Nat.eqb negb]. destruct k; cbn in Ho; [now apply mps_ok|now apply spider_ok].
  Qed.
  Lemma collapse_boxes b d : collapse_rewrite lf b = Ok d -> Forall (fun x => is_cupcap x \/ exists n c, x = Box n [] c 0) (boxes d).
  Proof.
    unfold collapse_rewrite. intros E. assert (J : forall c cu, tk is_cupcap cu c [] -> Forall (fun x => is_cupcap x \/ exists n c, x = Box n [] c 0) (boxes cu)) by (intros c cu [_ K]; eapply Forall_impl; [|exact K]; intros; now left).
    destruct lf.
    - destruct (tk_cups_l (b_dom b)) as (cu & Ec & T). rewrite Ec in E. cbn [bind] in E. rewrite (boxes_then E), !boxes_tensor. cbn [boxes id layers map app]. rewrite app_nil_r. apply J in T. constructor; [right; cbn; eauto|exact T].
    - destruct (tk_cups (b_dom b)) as (cu & Ec & T). rewrite Ec in E. cbn [bind] in E. rewrite (boxes_then E), !boxes_tensor. cbn [boxes id layers map app]. apply J in T. constructor; [right; cbn; eauto|exact T].
  Qed.
  Lemma ar_keeps f b : plain b -> keeps (split_ar k order lf (S (S f))) order b.
  Proof.
    intros P. destruct (b_dom b) as [|x l] eqn:D; [now apply ar_nodom|]. unfold keeps. remember (S f) as f1. cbn [split_ar]. destruct (Nat.leb_spec (List.length (b_dom b) + List.length (b_cod b)) order) as [L|L].
    - eexists. split; [reflexivity|]. rewrite (plain_dom P), D. split; [apply box0_typed|]. unfold kinds, boxes. cbn. constructor; [|constructor]. right. rewrite D in L. exact L.
    - unfold collapse_matches. rewrite D. cbn [List.length Nat.eqb negb]. rewrite <- D. destruct (collapse_typed lf b) as (d & E & W & Dd & Dc). rewrite E. cbn [bind].
      destruct (@diag_small (split_ar k order lf f1) order d W) as (e & Ee & Te & Ke); [|rewrite Dd, Dc in Te; eauto].
      apply All_Forall. assert (B := collapse_boxes E). unfold boxes in B. rewrite Forall_map in B. eapply Forall_impl; [|exact B]. subst f1. intros y [H|(n & c & ->)].
      + destruct (l_box y); try contradiction; cbn; auto.
      + cbn. split; auto. split; auto. now apply ar_nodom.
  Qed.
  Lemma basics_plain b : frameless b -> All plain (basics b).
  Proof. induction b; cbn; auto; intros F; try contradiction F; split; auto; cbn; destruct (Z.eqb_spec z 0); cbn; lia. Qed.
  Lemma split_ok f d : wf d -> All (fun x => frameless (l_box x)) (layers d) -> exists e, split_diag k order lf (S (S f)) d = Ok e /\ typed e (dom d) (cod d) /\ order_le order e.
  Proof.
    intros W F. unfold split_diag. replace (existsb is_frame (boxes d)) with false.
    - apply diag_small; auto. eapply All_impl; [|exact F]. intros y Hy. split; auto. eapply All_impl; [|apply (basics_plain Hy)]. intros z. apply ar_keeps.
    - symmetry. unfold boxes. clear W. induction (layers d) as [|x ls IH]; [reflexivity|]. cbn in *. destruct F as [F1 F2]. rewrite IH by auto. destruct (l_box x); try contradiction; reflexivity.
  Qed.
End AR.
Lemma split_frames k order lf f d : existsb is_frame (boxes d) = true -> split_diag k order lf f d = Err OtherError.
Proof. intros H. unfold split_diag. now rewrite H. Qed.
(** ** more fuel changes nothing *)
Lemma F_diag_ext car car' d : wf d -> All (fun x => All (fun b => car b = car' b) (basics (l_box x))) (layers d) -> F_diag id_ob car d = F_diag id_ob car' d.
Proof.
  intros [C _] H. rewrite !(F_diag_eq (ob := fun n => [(n, 0%Z)]) _ Hid C). f_equal.
  assert (B : forall b, All (fun b => car b = car' b) (basics b) -> F_box id_ob car b = F_box id_ob car' b).
  { induction b; cbn [F_box basics]; intros Hb; auto; try (unfold F_basic; cbn [All] in Hb; destruct Hb as [Hb _]; destruct (b_z _ =? 0)%Z; rewrite Hb; reflexivity). rewrite IHb by auto; reflexivity. }
  clear C. induction (layers d) as [|[[l b] r] ls IH]; [reflexivity|]. cbn [mapM]. cbn in H. destruct H as [H1 H2]. rewrite IH by auto. cbn [F_layer]. now rewrite (B b H1).
Qed.
Lemma ar_nodom_fuel k order lf f g b : b_dom b = [] -> split_ar k order lf (S f) b = split_ar k order lf (S g) b.
Proof. intros D. cbn [split_ar]. destruct (_ <=? _); auto. unfold collapse_matches. now rewrite D. Qed.
Lemma ar_fuel k order lf f g b : split_ar k order lf (S (S f)) b = split_ar k order lf (S (S g)) b.
Proof.
  remember (S f) as f1. remember (S g) as g1. cbn [split_ar]. destruct (_ <=? _); auto. destruct (collapse_matches b); auto.
  destruct (collapse_typed lf b) as (d & E & W & _). rewrite E. cbn [bind]. apply F_diag_ext; auto. apply All_Forall. assert (B := collapse_boxes E). unfold boxes in B. rewrite Forall_map in B. eapply Forall_impl; [|exact B].
  subst. intros y [H|(n & c & ->)]; [destruct (l_box y); try contradiction; cbn; auto|]. cbn [basics b_z Z.eqb All]. split; [now apply ar_nodom_fuel|exact I].
Qed.
Lemma split_fuel k order lf f g d : wf d -> split_diag k order lf (S (S f)) d = split_diag k order lf (S (S g)) d.
Proof.
  intros W. unfold split_diag. destruct (existsb _ _); [reflexivity|]. apply F_diag_ext; [exact W|]. apply All_Forall, Forall_forall. intros x _. apply All_Forall, Forall_forall. intros b _. apply ar_fuel.
Qed.
(** ** directed dimensions *)
Lemma prod_fold l : forall a, fold_left Nat.mul l a = a * product l.
Proof. induction l as [|x l IH]; intros a; cbn; [lia|]. rewrite IH. cbn. lia. Qed.
Lemma prod_product l : prod l = product l. Proof. unfold prod. rewrite prod_fold. lia. Qed.
Lemma product_app a b : product (a ++ b) = product a * product b.
Proof. induction a; cbn; [lia|]. rewrite IHa. lia. Qed.
Lemma product_rev a : product (rev a) = product a.
Proof. induction a; cbn; [auto|]. rewrite product_app, IHa. cbn. lia. Qed.
Section DD.
  Variables (ob : string -> res (list nat)) (od : string -> list nat).
  (** the dimension of a leg *)
  Notation w a := (product (dim (od (fst a)))).
  Lemma D_atom_ok a : ob (fst a) = Ok (od (fst a)) -> exists l, D_atom ob a = Ok l /\ product l = w a.
  Proof. intros E. unfold D_atom. rewrite E. cbn. destruct (snd a =? 0)%Z; eexists; split; eauto. destruct (Z.odd (snd a)); auto using product_rev. Qed.
  Lemma D_ty_ok t : Forall (fun a => ob (fst a) = Ok (od (fst a))) t -> exists l, D_ty ob t = Ok l /\ product l = product (map (fun a => w a) t).
  Proof.
    induction 1 as [|a t H F IH]; [eexists; split; reflexivity|]. destruct (D_atom_ok H) as (l & E & P), IH as (l' & E' & P'). unfold D_ty in *. cbn [mapM]. rewrite E. cbn. destruct (mapM (D_atom ob) t); [|discriminate]. cbn in *. inversion E'; subst. eexists; split; [reflexivity|]. cbn. rewrite product_app. congruence.
  Qed.
  Lemma dir_fold1 l : forall d c, fold_left (fun '(d, c) a => if Z.odd (snd a) then (d ++ [a], c) else (d, c ++ [a])) l (d, c) = (d ++ filter (fun a : atom => Z.odd (snd a)) l, c ++ filter (fun a : atom => negb (Z.odd (snd a))) l).
  Proof. induction l as [|a l IH]; intros d c; cbn [fold_left filter]; [now rewrite !app_nil_r|]. destruct (Z.odd (snd a)); rewrite IH; cbn; now rewrite <- app_assoc. Qed.
  Lemma dir_fold2 l : forall d c, fold_left (fun '(d, c) a => if Z.odd (snd a) then (d, c ++ [a]) else (d ++ [a], c)) l (d, c) = (d ++ filter (fun a : atom => negb (Z.odd (snd a))) l, c ++ filter (fun a : atom => Z.odd (snd a)) l).
  Proof. induction l as [|a l IH]; intros d c; cbn [fold_left filter]; [now rewrite !app_nil_r|]. destruct (Z.odd (snd a)); rewrite IH; cbn; now rewrite <- app_assoc. Qed.
  Lemma directed_eq b : directed b = (filter (fun a => Z.odd (snd a)) (b_cod b) ++ filter (fun a => negb (Z.odd (snd a))) (b_dom b), filter (fun a => negb (Z.odd (snd a))) (b_cod b) ++ filter (fun a => Z.odd (snd a)) (b_dom b)).
  Proof. unfold directed. rewrite dir_fold1, dir_fold2. reflexivity. Qed.
  Lemma legs_filter p b : map (fun a => w a) (map fst (filter p (legs b))) = map (fun a => w a) (filter (fun a => p (a, true)) (b_dom b)) ++ map (fun a => w a) (filter (fun a => p (a, false)) (b_cod b)).
  Proof.
    unfold legs. rewrite filter_app, !map_app. f_equal; f_equal.
    - induction (b_dom b) as [|a l IH]; [reflexivity|]. cbn [map filter]. destruct (p (a, true)); cbn; now rewrite ?IH.
    - induction (b_cod b) as [|a l IH]; [reflexivity|]. cbn [map filter]. destruct (p (a, false)); cbn; now rewrite ?IH.
  Qed.
  Lemma filter_F P (p : atom -> bool) l : Forall P l -> Forall P (filter p l).
  Proof. intros F. rewrite Forall_forall in *. intros x H. apply filter_In in H. now apply F. Qed.
  Lemma filter_split (p : atom -> bool) l : product (map (fun a => w a) (filter p l)) * product (map (fun a => w a) (filter (fun a => negb (p a)) l)) = product (map (fun a => w a) l).
  Proof. induction l as [|a l IH]; [reflexivity|]. cbn [filter map product]. rewrite <- IH. destruct (p a); cbn; ring. Qed.
  Lemma tensor_ar_ok b : Forall (fun a => ob (fst a) = Ok (od (fst a))) (b_dom b ++ b_cod b) ->
    exists dd dc bd bc, tensor_ar ob b = Ok (summarise b, (dd, dc), (bd, bc))
    /\ dd = product (map (fun l => w (fst l)) (filter inflow (legs b))) /\ dc = product (map (fun l => w (fst l)) (filter (fun l => negb (inflow l)) (legs b)))
    /\ D_ty ob (b_dom b) = Ok bd /\ D_ty ob (b_cod b) = Ok bc /\ dd * dc = product bd * product bc.
  Proof.
    intros F. apply Forall_app in F as [Fd Fc]. unfold tensor_ar. rewrite directed_eq.
    destruct (@D_ty_ok (filter (fun a => Z.odd (snd a)) (b_cod b) ++ filter (fun a => negb (Z.odd (snd a))) (b_dom b))) as (fd & E1 & P1). { apply Forall_app; split; now apply filter_F. }
    destruct (@D_ty_ok (filter (fun a => negb (Z.odd (snd a))) (b_cod b) ++ filter (fun a => Z.odd (snd a)) (b_dom b))) as (fc & E2 & P2). { apply Forall_app; split; now apply filter_F. }
    destruct (D_ty_ok Fd) as (bd & E3 & P3), (D_ty_ok Fc) as (bc & E4 & P4). rewrite E1, E2, E3, E4. cbn [bind]. rewrite !prod_product.
    eexists _, _, _, _. split; [reflexivity|]. rewrite <- !(map_map fst (fun a : atom => w a)), !legs_filter, !product_app, P1, P2, P3, P4, !map_app, !product_app. unfold inflow. cbn [fst snd].
    assert (X : forall l, filter (fun a : atom => negb (xorb true (Z.odd (snd a)))) l = filter (fun a => Z.odd (snd a)) l). { intros l. apply filter_ext. intros a. now destruct (Z.odd (snd a)). }
    assert (Y : forall l, filter (fun a : atom => xorb true (Z.odd (snd a))) l = filter (fun a => negb (Z.odd (snd a))) l). { intros l. apply filter_ext. intros a. now destruct (Z.odd (snd a)). }
    assert (Z1 : forall l, filter (fun a : atom => xorb false (Z.odd (snd a))) l = filter (fun a => Z.odd (snd a)) l). { intros l. apply filter_ext. intros a. now destruct (Z.odd (snd a)). }
    assert (Z2 : forall l, filter (fun a : atom => negb (xorb false (Z.odd (snd a)))) l = filter (fun a => negb (Z.odd (snd a))) l). { intros l. apply filter_ext. intros a. now destruct (Z.odd (snd a)). }
    rewrite (X (b_dom b)), (Y (b_dom b)), (Z1 (b_cod b)), (Z2 (b_cod b)).
    split; [ring|]. split; [ring|]. split; [reflexivity|]. split; [reflexivity|].
    assert (H1 := filter_split (fun a => Z.odd (snd a)) (b_dom b)). assert (H2 := filter_split (fun a => Z.odd (snd a)) (b_cod b)). unfold atom in *. rewrite <- H1, <- H2. ring.
  Qed.
End DD.
Lemma product_dim l : Forall (fun n => 1 <= n) l -> product (dim l) = product l.
Proof. induction 1 as [|n l H F IH]; [reflexivity|]. cbn [dim filter]. destruct (Nat.ltb_spec 1 n); cbn [product]; unfold dim in IH; rewrite IH; [auto|]. assert (n = 1) by lia. subst. lia. Qed.
Lemma directed_ok ob od b :
  Forall (fun a => ob (fst a) = Ok (od (fst a)) /\ Forall (fun n => 1 <= n) (od (fst a))) (b_dom b ++ b_cod b) ->
  exists dd dc bd bc, tensor_ar ob b = Ok (summarise b, (dd, dc), (bd, bc))
    /\ dd = product (map (fun l => product (od (fst (fst l)))) (filter inflow (legs b)))
    /\ dc = product (map (fun l => product (od (fst (fst l)))) (filter (fun l => negb (inflow l)) (legs b)))
    /\ D_ty ob (b_dom b) = Ok bd /\ D_ty ob (b_cod b) = Ok bc
    /\ dd * dc = product (map (fun l => product (od (fst (fst l)))) (legs b)) /\ dd * dc = product bd * product bc.
Proof.
  intros F. destruct (@tensor_ar_ok ob od b) as (dd & dc & bd & bc & E & E1 & E2 & E3 & E4 & E5). { eapply Forall_impl; [|exact F]. now intros a [H _]. }
  assert (L : forall l, In l (legs b) -> product (dim (od (fst (fst l)))) = product (od (fst (fst l)))).
  { intros l H. apply product_dim. rewrite Forall_forall in F. apply F. unfold legs in H. apply in_app_or in H as [H|H]; apply in_map_iff in H as (a & <- & H); apply in_or_app; auto. }
  assert (M : forall p, map (fun l => product (dim (od (fst (fst l))))) (filter p (legs b)) = map (fun l => product (od (fst (fst l)))) (filter p (legs b))). { intros p. apply map_ext_in. intros l H. apply filter_In in H as [H _]. auto. }
  rewrite M in E1, E2. exists dd, dc, bd, bc. repeat (split; [assumption|]). split; [|assumption].
  rewrite E1, E2. clear. generalize (legs b). intros ls. induction ls as [|l ls IH]; [reflexivity|]. cbn [filter map product]. rewrite <- IH. destruct (inflow l); cbn [negb map product]; ring.
Qed.
Lemma checks order keys : (mps_check order keys = Ok tt <-> 3 <= order /\ ~ In "B"%string keys) /\ (spider_check order = Ok tt <-> 2 <= order).
Proof.
  split.
  - unfold mps_check. destruct (Nat.ltb_spec order 3); [split; [discriminate|lia]|]. destruct (existsb _ keys) eqn:E.
    + split; [discriminate|]. intros [_ N]. apply existsb_exists in E as (x & H' & E). apply String.eqb_eq in E. subst. contradiction.
    + split; auto. intros _. split; [lia|]. intros I. assert (existsb (String.eqb "B") keys = true) by (apply existsb_exists; eexists; split; [exact I|reflexivity]). congruence.
  - unfold spider_check. destruct (Nat.ltb_spec order 2); split; try discriminate; auto; lia.
Qed.
