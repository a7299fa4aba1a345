(** Structural facts about boxes and diagrams (lemmas only). *)
From Verif Require Import PyBase PyFacts TyModel TyFacts DiagModel DiagSpec.
Set Implicit Arguments.
#[global] Arguments tensor : simpl never.
#[global] Arguments tensor_list : simpl never.
#[global] Arguments d_then : simpl never.
#[global] Arguments then_list : simpl never.
#[global] Arguments then_at : simpl never.
#[global] Arguments rot : simpl never.

(** ** All *)
Lemma All_Forall A (P : A -> Prop) l : All P l <-> Forall P l.
Proof.
  induction l as [|x l IH]; cbn; [split; auto|]. rewrite IH. split.
  - intros [? ?]; constructor; auto.
  - intros H; inversion H; auto.
Qed.
Lemma All_app A (P : A -> Prop) l k : All P (l ++ k) <-> All P l /\ All P k.
Proof. rewrite !All_Forall. apply Forall_app. Qed.
Lemma All_map A B (P : B -> Prop) (f : A -> B) l : All P (map f l) <-> All (fun x => P (f x)) l.
Proof. rewrite !All_Forall. apply Forall_map. Qed.
Lemma All_rev A (P : A -> Prop) l : All P (rev l) <-> All P l.
Proof.
  induction l as [|x l IH]; cbn; [tauto|]. rewrite All_app, IH. cbn. tauto.
Qed.
Lemma All_impl A (P Q : A -> Prop) l : (forall x, P x -> Q x) -> All P l -> All Q l.
Proof. intro H. induction l; cbn; firstorder. Qed.
Lemma All_In A (P : A -> Prop) l : All P l <-> forall x, In x l -> P x.
Proof. rewrite All_Forall. apply Forall_forall. Qed.
Lemma All_mp A (P Q : A -> Prop) l : All P l -> All (fun x => P x -> Q x) l -> All Q l.
Proof. induction l; cbn; firstorder. Qed.

(** ** Induction over boxes *)
Definition AllC (P : box -> Prop) (c : comp box) : Prop :=
  match c with CBox b => P b | CDiag _ _ ls => All (fun x => P (l_box x)) ls end.

Section BoxInd.
  Variable P : box -> Prop.
  Hypothesis HBox : forall n d c z, P (Box n d c z).
  Hypothesis HWord : forall n c z, P (Word n c z).
  Hypothesis HCap : forall l r v, P (Cap l r v).
  Hypothesis HCup : forall l r v, P (Cup l r v).
  Hypothesis HSwap : forall l r, P (Swap l r).
  Hypothesis HSpider : forall t n m, P (Spider t n m).
  Hypothesis HDagg : forall b, P b -> P (Dagg b).
  Hypothesis HFrame : forall n d c cs z, All (AllC P) cs -> P (Frame n d c cs z).
  Hypothesis HDagFrame : forall n d c cs z, All (AllC P) cs -> P (DagFrame n d c cs z).

  Fixpoint box_ind' (b : box) : P b :=
    let goc := fix goc (cs : list (comp box)) : All (AllC P) cs :=
      match cs with
      | [] => I
      | c :: cs' =>
        conj (match c return AllC P c with
              | CBox b => box_ind' b
              | CDiag _ _ ls =>
                (fix gol (ls : list (ty * box * ty)) : All (fun x => P (l_box x)) ls :=
                   match ls with
                   | [] => I
                   | (l, b, r) :: ls' => conj (box_ind' b) (gol ls')
                   end) ls
              end) (goc cs')
      end in
    match b with
    | Box n d c z => HBox n d c z
    | Word n c z => HWord n c z
    | Cap l r v => HCap l r v
    | Cup l r v => HCup l r v
    | Swap l r => HSwap l r
    | Spider t n m => HSpider t n m
    | Dagg b => HDagg (box_ind' b)
    | Frame n d c cs z => HFrame n d c cs z (goc cs)
    | DagFrame n d c cs z => HDagFrame n d c cs z (goc cs)
    end.
End BoxInd.

(** ** chain *)
Lemma chain_app ls ks d c : chain d (ls ++ ks) c <-> exists m, chain d ls m /\ chain m ks c.
Proof.
  revert d; induction ls as [|x ls IH]; intro d; cbn.
  - split; [intro H; exists d; auto|intros (m & -> & H); auto].
  - rewrite IH. firstorder.
Qed.
Lemma chain_app_i ls ks d m c : chain d ls m -> chain m ks c -> chain d (ls ++ ks) c.
Proof. rewrite chain_app. eauto. Qed.

Lemma chain_fun ls d c c' : chain d ls c -> chain d ls c' -> c = c'.
Proof.
  revert d; induction ls as [|x ls IH]; cbn; intros d H H'; [congruence|].
  eapply IH; [apply H|apply H'].
Qed.

Lemma l_dom_extend l r x : l_dom (l_extend l r x) = l ++ l_dom x ++ r.
Proof. destruct x as [[a b] c]; cbn. now rewrite !app_assoc. Qed.
Lemma l_cod_extend l r x : l_cod (l_extend l r x) = l ++ l_cod x ++ r.
Proof. destruct x as [[a b] c]; cbn. now rewrite !app_assoc. Qed.
Lemma l_box_extend l r x : l_box (l_extend l r x) = l_box x.
Proof. destruct x as [[a b] c]; reflexivity. Qed.
Lemma l_extend_nil x : l_extend [] [] x = x.
Proof. destruct x as [[a b] c]; cbn. now rewrite app_nil_r. Qed.
Lemma l_extend_extend a b c d x : l_extend a b (l_extend c d x) = l_extend (a ++ c) (d ++ b) x.
Proof. destruct x as [[l b'] r]; cbn. now rewrite !app_assoc. Qed.
Lemma map_l_extend_nil ls : map (l_extend [] []) ls = ls.
Proof. rewrite <- (map_id ls) at 2. apply map_ext, l_extend_nil. Qed.

Lemma chain_extend l r ls d c :
  chain d ls c -> chain (l ++ d ++ r) (map (l_extend l r) ls) (l ++ c ++ r).
Proof.
  revert d; induction ls as [|x ls IH]; intros d; cbn; [intros ->; auto|].
  intros [-> H]. rewrite l_dom_extend, l_cod_extend. auto.
Qed.

(** ** wf *)
Lemma wf_id t : wf (id t).
Proof. split; cbn; auto. Qed.
Lemma wf_to_diag b : box_ok b -> wf (to_diag b).
Proof. intro H; split; cbn; rewrite ?app_nil_r; auto. Qed.

(** ** tensor *)
Fixpoint tl (rest left : ty) (ds : list diagram) : list layer :=
  match ds with
  | [] => []
  | d :: ds' => map (l_extend left (List.concat (map dom ds') ++ rest)) (layers d)
                ++ tl rest (left ++ cod d) ds'
  end.
Lemma tensor_loop_spec ds : forall left acc rest,
  tensor_loop ds left (List.concat (map dom ds) ++ rest) acc =
  (left ++ List.concat (map cod ds), acc ++ tl rest left ds).
Proof.
  induction ds as [|d ds IH]; intros left acc rest; cbn [tensor_loop map List.concat tl].
  - now rewrite !app_nil_r.
  - rewrite <- !app_assoc. rewrite skipn_app, skipn_all, Nat.sub_diag. cbn [app skipn].
    rewrite IH. now rewrite <- !app_assoc.
Qed.
Lemma tl_snoc l d : forall left,
  tl [] left (l ++ [d]) =
  map (l_extend [] (dom d)) (tl [] left l) ++ map (l_extend (left ++ List.concat (map cod l)) []) (layers d).
Proof.
  induction l as [|x l IH]; intro left; cbn [app map List.concat tl].
  - now rewrite !app_nil_r.
  - rewrite IH. rewrite (map_app (l_extend [] (dom d))), <- app_assoc, map_map.
    rewrite <- (app_assoc (map _ (layers x))). f_equal.
    apply map_ext. intro y. rewrite l_extend_extend. f_equal.
    rewrite map_app, concat_app. cbn. now rewrite !app_nil_r.
Qed.
Lemma tensor_list_eq a ds : tensor_list a ds =
  Diag (List.concat (map dom (a :: ds))) (List.concat (map cod (a :: ds))) (tl [] [] (a :: ds)).
Proof.
  unfold tensor_list. pose proof (tensor_loop_spec (a :: ds) [] [] []) as H.
  rewrite app_nil_r in H. rewrite H. reflexivity.
Qed.

Lemma tensor_eq a b : tensor a b =
  Diag (dom a ++ dom b) (cod a ++ cod b)
       (map (l_extend [] (dom b)) (layers a) ++ map (l_extend (cod a) []) (layers b)).
Proof.
  unfold tensor. rewrite tensor_list_eq. cbn. now rewrite !app_nil_r.
Qed.
Lemma dom_tensor a b : dom (tensor a b) = dom a ++ dom b.
Proof. now rewrite tensor_eq. Qed.
Lemma cod_tensor a b : cod (tensor a b) = cod a ++ cod b.
Proof. now rewrite tensor_eq. Qed.
Lemma layers_tensor a b : layers (tensor a b) =
  map (l_extend [] (dom b)) (layers a) ++ map (l_extend (cod a) []) (layers b).
Proof. now rewrite tensor_eq. Qed.

Lemma All_extend (P : box -> Prop) l r ls :
  All (fun x => P (l_box x)) (map (l_extend l r) ls) <-> All (fun x => P (l_box x)) ls.
Proof.
  rewrite All_map. split; apply All_impl; intro x; now rewrite l_box_extend.
Qed.

Lemma wf_tensor a b : wf a -> wf b -> wf (tensor a b).
Proof.
  intros [Ha Ba] [Hb Bb]. rewrite tensor_eq. split; cbn.
  - apply (chain_extend [] (dom b)) in Ha. apply (chain_extend (cod a) []) in Hb.
    cbn in *. rewrite !app_nil_r in Hb. eapply chain_app_i; eauto.
  - rewrite All_app. split; now apply (All_extend box_ok).
Qed.

Lemma tensor_assoc_eq a b c : tensor (tensor a b) c = tensor a (tensor b c).
Proof.
  rewrite (tensor_eq (tensor a b)), (tensor_eq a (tensor b c)), !tensor_eq. cbn.
  rewrite !app_assoc. f_equal.
  rewrite !map_app, !map_map, <- app_assoc.
  repeat (f_equal; try (apply map_ext; intro x; rewrite !l_extend_extend; cbn; now rewrite ?app_nil_r)).
Qed.

Lemma tensor_id_l d : tensor (id []) d = d.
Proof. rewrite tensor_eq; destruct d; cbn. now rewrite map_l_extend_nil. Qed.
Lemma tensor_id_r d : tensor d (id []) = d.
Proof. rewrite tensor_eq; destruct d; cbn. now rewrite map_l_extend_nil, !app_nil_r. Qed.
Lemma tensor_ids s t : tensor (id s) (id t) = id (s ++ t).
Proof. rewrite tensor_eq; reflexivity. Qed.

Lemma tensor_list_nil a : tensor_list a [] = a.
Proof.
  rewrite tensor_list_eq. destruct a; cbn. now rewrite !app_nil_r, map_l_extend_nil.
Qed.

Lemma tensor_list_snoc a ds d : tensor_list a (ds ++ [d]) = tensor (tensor_list a ds) d.
Proof.
  rewrite tensor_eq, !tensor_list_eq. cbn [dom cod layers].
  change (a :: ds ++ [d]) with ((a :: ds) ++ [d]).
  generalize (a :: ds) as l. intro l. rewrite tl_snoc, !map_app, !concat_app.
  cbn [map List.concat app]. now rewrite !app_nil_r.
Qed.

Lemma tensor_list_fold a ds : tensor_list a ds = fold_left tensor ds a.
Proof.
  induction ds as [|d ds IH] using rev_ind; [apply tensor_list_nil|].
  now rewrite tensor_list_snoc, fold_left_app, IH.
Qed.

Lemma wf_tensor_list a ds : wf a -> Forall wf ds -> wf (tensor_list a ds).
Proof.
  rewrite tensor_list_fold. revert a. induction ds as [|d ds IH]; intros a Ha Hd; cbn; auto.
  inversion Hd; subst. apply IH; auto. now apply wf_tensor.
Qed.
Lemma dom_tensor_list a ds : dom (tensor_list a ds) = dom a ++ List.concat (map dom ds).
Proof.
  rewrite tensor_list_fold. revert a. induction ds as [|d ds IH]; intro a; cbn;
    [now rewrite app_nil_r|]. now rewrite IH, dom_tensor, app_assoc.
Qed.
Lemma cod_tensor_list a ds : cod (tensor_list a ds) = cod a ++ List.concat (map cod ds).
Proof.
  rewrite tensor_list_fold. revert a. induction ds as [|d ds IH]; intro a; cbn;
    [now rewrite app_nil_r|]. now rewrite IH, cod_tensor, app_assoc.
Qed.

(** ** then *)
Lemma ty_eqb_neq s t : s <> t -> ty_eqb s t = false.
Proof. intro H. destruct (ty_eqb_spec s t); congruence. Qed.

Lemma d_then_eq a b : d_then a b =
  if ty_eqb (dom b) (cod a) then Ok (Diag (dom a) (cod b) (layers a ++ layers b)) else Err ValueError.
Proof.
  unfold d_then, then_list; cbn [then_loop]. destruct (ty_eqb (dom b) (cod a)); reflexivity.
Qed.
Lemma d_then_ok a b : cod a = dom b -> d_then a b = Ok (Diag (dom a) (cod b) (layers a ++ layers b)).
Proof. intro H. rewrite d_then_eq, H, ty_eqb_refl. reflexivity. Qed.
Lemma d_then_inv a b c : d_then a b = Ok c ->
  cod a = dom b /\ c = Diag (dom a) (cod b) (layers a ++ layers b).
Proof.
  rewrite d_then_eq. destruct (ty_eqb_spec (dom b) (cod a)); [|discriminate].
  intro H; inversion H; auto.
Qed.
Lemma d_then_err a b : d_then a b = Err ValueError <-> cod a <> dom b.
Proof.
  rewrite d_then_eq. destruct (ty_eqb_spec (dom b) (cod a)); split; intros; congruence.
Qed.
Lemma wf_then a b c : wf a -> wf b -> d_then a b = Ok c -> wf c.
Proof.
  intros [Ha Ba] [Hb Bb] H. apply d_then_inv in H as [E ->]. split; cbn.
  - rewrite E in Ha. eapply chain_app_i; eauto.
  - rewrite All_app; auto.
Qed.
Lemma typed_then a b r s t : typed a r s -> typed b s t ->
  exists c, d_then a b = Ok c /\ typed c r t.
Proof.
  intros (Wa & Da & Ca) (Wb & Db & Cb). subst.
  exists (Diag (dom a) (cod b) (layers a ++ layers b)).
  assert (H : d_then a b = Ok (Diag (dom a) (cod b) (layers a ++ layers b))) by now apply d_then_ok.
  split; [exact H|]. split; [exact (wf_then Wa Wb H)|split; reflexivity].
Qed.
Lemma typed_tensor a b s t s' t' : typed a s t -> typed b s' t' -> typed (tensor a b) (s ++ s') (t ++ t').
Proof.
  intros (Wa & Da & Ca) (Wb & Db & Cb). subst. split; [now apply wf_tensor|].
  now rewrite dom_tensor, cod_tensor.
Qed.
Lemma typed_id t : typed (id t) t t.
Proof. split; [apply wf_id|split; reflexivity]. Qed.
Lemma typed_box b : box_ok b -> typed (to_diag b) (b_dom b) (b_cod b).
Proof. intro; split; [now apply wf_to_diag|split; reflexivity]. Qed.
Lemma typed_to_diag b s t : box_ok b -> b_dom b = s -> b_cod b = t -> typed (to_diag b) s t.
Proof. intros; subst; now apply typed_box. Qed.

Lemma then_list_fold a ds : then_list a ds = foldM d_then ds a.
Proof.
  unfold then_list. revert a. induction ds as [|d ds IH]; intros a; cbn.
  - destruct a; reflexivity.
  - rewrite d_then_eq. destruct (ty_eqb (dom d) (cod a)); cbn; [|reflexivity].
    rewrite <- IH. reflexivity.
Qed.

Lemma then_assoc a b c :
  (do x <- d_then a b; d_then x c) = (do y <- d_then b c; d_then a y).
Proof.
  rewrite (d_then_eq a b), (d_then_eq b c).
  destruct (ty_eqb (dom b) (cod a)) eqn:E1, (ty_eqb (dom c) (cod b)) eqn:E2; cbn;
    rewrite ?d_then_eq; cbn; rewrite ?E1, ?E2; auto. now rewrite app_assoc.
Qed.
Lemma then_id_l d : d_then (id (dom d)) d = Ok d.
Proof. rewrite d_then_ok by reflexivity. destruct d; reflexivity. Qed.
Lemma then_id_r d : d_then d (id (cod d)) = Ok d.
Proof. rewrite d_then_ok by reflexivity. destruct d; cbn. now rewrite app_nil_r. Qed.

Lemma adj_of_nat n k : adj n (Z.of_nat k) = Nat.min k n.
Proof. rewrite adj_nonneg by lia. now rewrite Nat2Z.id. Qed.

Lemma then_at_ok d x A C i : cod d = A ++ dom x ++ C -> i = Z.of_nat (List.length A) ->
  then_at d x i = Ok (Diag (dom d) (A ++ cod x ++ C) (layers d ++ map (l_extend A C) (layers x))).
Proof.
  intros E ->. unfold then_at.
  rewrite py_slice_stop, py_slice_start, <- Nat2Z.inj_add, !adj_of_nat.
  rewrite E. rewrite Nat.min_l by (rewrite !app_length; lia).
  rewrite Nat.min_l by (rewrite !app_length; lia).
  rewrite firstn_app, firstn_all, Nat.sub_diag. cbn [firstn]. rewrite app_nil_r.
  rewrite app_assoc, skipn_app, app_length, Nat.sub_diag.
  rewrite skipn_all2 by (rewrite app_length; lia). cbn [skipn app].
  rewrite d_then_ok.
  2:{ rewrite !dom_tensor; cbn. now rewrite E, app_assoc. }
  rewrite !cod_tensor, !layers_tensor. cbn. rewrite !app_nil_r, <- app_assoc, map_map.
  do 3 f_equal. apply map_ext. intro y.
  rewrite l_extend_extend; cbn. now rewrite ?app_nil_r.
Qed.

Lemma wf_then_at d x i c : wf d -> wf x -> then_at d x i = Ok c -> wf c.
Proof.
  intros Hd Hx H. unfold then_at in H. eapply wf_then; [| |exact H]; auto.
  repeat apply wf_tensor; auto using wf_id.
Qed.
