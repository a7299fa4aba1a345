(** Removing cups (proofs only). *)
From Coq Require Import Permutation.
From Verif Require Import PyBase PyFacts TyModel TyFacts DiagModel DiagSpec DiagFacts DiagRot DiagPerm DiagCups BoxEq RemCupsModel RemCupsSpec.
Set Implicit Arguments. Unset Strict Implicit.

(** ** boxes of composites *)
Lemma boxes_tensor a b : boxes (tensor a b) = boxes a ++ boxes b.
Proof.
  unfold boxes. rewrite layers_tensor, map_app, !map_map. f_equal; apply map_ext; intro; apply l_box_extend.
Qed.
Lemma boxes_then a b c : d_then a b = Ok c -> boxes c = boxes a ++ boxes b.
Proof. intro H. apply d_then_inv in H. destruct H as [_ ->]. unfold boxes. cbn. apply map_app. Qed.
Lemma boxes_dagger d : wf d -> boxes (d_dagger d) = map b_dagger (rev (boxes d)).
Proof.
  intro W. rewrite d_dagger_eq by auto. unfold boxes. cbn. rewrite map_map, <- map_rev, map_map. apply map_ext.
  intro. apply l_box_dagger.
Qed.
Lemma boxes_rotate z d : boxes (d_rotate z d) = map (b_rotate z) (boxes d).
Proof. unfold boxes. cbn. rewrite !map_map. apply map_ext. intro. apply l_box_rotate. Qed.

Lemma word_dagger b : word_of (b_dagger b) = word_of b.
Proof. now destruct b. Qed.
Lemma word_rotate z b : word_of (b_rotate z b) = word_of b.
Proof.
  induction b; cbn [b_rotate word_of]; auto; try (destruct (Z.odd z); reflexivity).
  rewrite rot_add. do 2 f_equal. f_equal. lia.
Qed.
Lemma bends_dagger b : bends_of (b_dagger b) = bends_of b.
Proof. now destruct b. Qed.
Lemma bends_rotate z b : bends_of (b_rotate z b) = bends_of b.
Proof. induction b; cbn [b_rotate bends_of]; auto; destruct (Z.odd z); reflexivity. Qed.
(** boxes standing for a pair of nested cups count twice *)
Fixpoint weight (b : box) : nat :=
  match b with
  | Cup _ _ _ | Cap _ _ _ => 1
  | Box n d _ _ => if String.eqb n CUP_TOKEN then List.length d / 2 else 0
  | Dagg b' => weight b'
  | _ => 0
  end.
Lemma weight_dagger b : weight (b_dagger b) = weight b.
Proof. now destruct b. Qed.
Lemma weight_rotate z b : weight (b_rotate z b) = weight b.
Proof. induction b; cbn [b_rotate weight]; auto; try (destruct (Z.odd z); reflexivity). now rewrite rot_length. Qed.
Lemma unres_dagger b : unreserved b -> unreserved (b_dagger b).
Proof. destruct b; cbn; auto. Qed.
Lemma unres_rotate z b : unreserved b -> unreserved (b_rotate z b).
Proof. induction b; cbn [b_rotate unreserved]; auto; destruct (Z.odd z); auto. Qed.
Lemma plus_not_token s : append s "+" <> CUP_TOKEN.
Proof.
  unfold CUP_TOKEN. do 8 (destruct s as [|? s]; [cbn; discriminate|]). cbn. discriminate.
Qed.
Lemma unres_name b : unreserved b -> b_name b <> CUP_TOKEN.
Proof.
  induction b; cbn [unreserved b_name]; intros H; auto; try discriminate; apply plus_not_token.
Qed.
Lemma unres_weight b : unreserved b -> weight b = bends_of b.
Proof.
  induction b; cbn [unreserved weight bends_of]; intro H; auto. destruct (String.eqb_spec name CUP_TOKEN) as [E|E]; [destruct H; exact E|reflexivity].
Qed.

Definition wt (bs : list box) : nat := fold_right Nat.add 0 (map weight bs).
Lemma wt_app a b : wt (a ++ b) = wt a + wt b.
Proof. unfold wt. induction a; cbn; lia. Qed.
Lemma wt_rev a : wt (rev a) = wt a.
Proof. induction a as [|x a IH]; cbn [rev]; auto. rewrite wt_app, IH. unfold wt. cbn. lia. Qed.
Lemma wt_map (f : box -> box) a : (forall b, weight (f b) = weight b) -> wt (map f a) = wt a.
Proof. intro H. unfold wt. rewrite map_map. f_equal. apply map_ext. auto. Qed.
Definition ws (bs : list box) : list (string * ty) := flat_map word_of bs.
Lemma ws_app a b : ws (a ++ b) = ws a ++ ws b.
Proof. apply flat_map_app. Qed.
Lemma ws_rev a : Permutation (ws (rev a)) (ws a).
Proof.
  induction a as [|x a IH]; cbn [rev]; auto. rewrite ws_app. cbn. rewrite app_nil_r, IH. apply Permutation_app_comm.
Qed.
Lemma ws_map (f : box -> box) a : (forall b, word_of (f b) = word_of b) -> ws (map f a) = ws a.
Proof. intro H. unfold ws. induction a; cbn; auto. now rewrite H, IHa. Qed.

(** a diagram with its interface and an account of its boxes *)
Definition good (d : diagram) (s t : ty) (bs : list box) : Prop :=
  typed d s t /\ Forall unreserved (boxes d) /\ Permutation (ws (boxes d)) (ws bs) /\ wt (boxes d) <= wt bs.
Lemma good_id t : good (id t) t t [].
Proof. split; [apply typed_id|]. cbn. repeat split; auto. Qed.
Lemma good_tensor a b s t s' t' u v : good a s t u -> good b s' t' v -> good (tensor a b) (s ++ s') (t ++ t') (u ++ v).
Proof.
  intros (A1 & A2 & A3 & A4) (B1 & B2 & B3 & B4). split; [now apply typed_tensor|]. rewrite boxes_tensor.
  split; [apply Forall_app; auto|]. rewrite !ws_app, !wt_app. split; [now apply Permutation_app|lia].
Qed.
Lemma good_then a b r s t u v : good a r s u -> good b s t v -> exists c, d_then a b = Ok c /\ good c r t (u ++ v).
Proof.
  intros (A1 & A2 & A3 & A4) (B1 & B2 & B3 & B4). destruct (typed_then A1 B1) as (c & E & T). exists c. split; auto.
  split; auto. rewrite (boxes_then E). split; [apply Forall_app; auto|]. rewrite !ws_app, !wt_app. split; [now apply Permutation_app|lia].
Qed.
Lemma good_bend z d s t u : good d s t u -> good (d_rotate z (d_dagger d)) (rot z t) (rot z s) u.
Proof.
  intros ((W & D & C) & A2 & A3 & A4). split.
  - split; [now apply wf_rotate, wf_dagger|]. rewrite d_dagger_eq by auto. cbn. now rewrite D, C.
  - rewrite boxes_rotate, boxes_dagger by auto. split; [|split].
    + rewrite Forall_map, Forall_map. apply Forall_rev. eapply Forall_impl; [|exact A2]. intros b H.
      now apply unres_rotate, unres_dagger.
    + rewrite ws_map by apply word_rotate. rewrite ws_map by apply word_dagger. now rewrite ws_rev.
    + rewrite wt_map by apply weight_rotate. rewrite wt_map by apply weight_dagger. now rewrite wt_rev.
Qed.
Lemma good_box b : box_ok b -> unreserved b -> good (to_diag b) (b_dom b) (b_cod b) [b].
Proof. intros O U. split; [now apply typed_box|]. cbn. repeat split; auto. Qed.
Lemma good_swap_boxes d s t u v : Permutation u v -> good d s t u -> good d s t v.
Proof.
  intros P (A1 & A2 & A3 & A4). split; auto. split; auto. split.
  - rewrite A3. unfold ws. now apply Permutation_flat_map.
  - replace (wt v) with (wt u); auto. clear -P. unfold wt. induction P; cbn; lia.
Qed.
Lemma good_drop d s t u b : word_of b = [] -> good d s t u -> good d s t (u ++ [b]).
Proof.
  intros E (A1 & A2 & A3 & A4). split; auto. split; auto. rewrite ws_app, wt_app. cbn. rewrite E, !app_nil_r. split; auto. lia.
Qed.
Lemma cups_good t1 t2 rv d b : cups t1 t2 rv = Ok d -> List.length t1 <= List.length t2 -> word_of b = [] -> List.length t1 <= weight b -> 0 < List.length t1 ->
  good d (t1 ++ t2) [] [b].
Proof.
  intros E L Wb Hw Hp. destruct rv.
  - destruct t1 as [|a [|a' t1]]; cbn in Hp; [lia| |rewrite cups_reversed_compound in E; discriminate].
    destruct t2 as [|r [|r' t2]]; cbn in L; [lia| |].
    + cbn in E. unfold mk_cup in E. destruct (cup_adjoint [a] [r] true) eqn:Ea; [|discriminate]. cbn in E. injection E as <-.
      cbn [cup_adjoint] in Ea. apply ty_eqb_iff in Ea. rewrite rot_single in Ea. injection Ea as ->.
      split; [now apply typed_to_diag|]. cbn. split; [repeat constructor|]. rewrite Wb. cbn in *. split; auto. unfold wt. cbn. lia.
    + unfold cups in E. destruct (cup_adjoint [a] (r :: r' :: t2) true) eqn:Ea; [|discriminate]. exfalso.
      cbn [cup_adjoint] in Ea. apply ty_eqb_iff in Ea. apply (f_equal (@List.length _)) in Ea. rewrite rot_length in Ea. cbn in Ea. lia.
  - pose proof (cups_inv E) as ->. rewrite cups_eq in E. injection E as <-. rewrite rot_length in *.
    split; [|].
    + split; [|split; reflexivity]. unfold wf. cbn. rewrite rot_m1. apply cup_layers_wf.
    + unfold boxes. cbn [layers]. assert (G : Forall unreserved (map l_box (cup_layers t2)) /\ ws (map l_box (cup_layers t2)) = [] /\ wt (map l_box (cup_layers t2)) = List.length t2).
      { clear. induction t2 as [|x t IH]; cbn; [auto|]. destruct IH as (I1 & I2 & I3). split; [constructor; [exact I|exact I1]|]. split; [exact I2|]. unfold wt in *. cbn in *. rewrite I3. reflexivity. }
      destruct G as (G1 & -> & ->). split; auto. cbn [ws flat_map]. rewrite Wb. split; auto. unfold wt. cbn. lia.
Qed.

(** ** one contraction *)
Lemma rotz_nil z : rot z [] = [].
Proof. unfold rot. now destruct (Z.odd z). Qed.
Lemma app_len_inj A (a b c d : list A) : a ++ b = c ++ d -> List.length a = List.length c -> a = c /\ b = d.
Proof.
  revert c. induction a as [|x a IH]; intros [|y c] E L; cbn in *; try lia; auto. injection E as -> E. destruct (IH c E); [lia|]. subst. auto.
Qed.
Lemma app_prefix A (a b c d : list A) : a ++ b = c ++ d -> List.length a <= List.length c -> exists m, c = a ++ m /\ b = m ++ d.
Proof.
  revert c. induction a as [|x a IH]; intros c E L; cbn in *; [eauto|]. destruct c as [|y c]; cbn in *; [lia|].
  injection E as -> E. destruct (IH c E) as (m & -> & ->); [lia|]. eauto.
Qed.
Lemma slice_l (A B C : ty) : py_slice (A ++ B) None (Some (Z.of_nat (List.length A))) = A.
Proof. rewrite py_slice_stop_pos by lia. rewrite Nat2Z.id, firstn_app, Nat.sub_diag, firstn_all. cbn. apply app_nil_r. Qed.
Lemma slice_r (A B C : ty) : py_slice (A ++ B ++ C) (Some (Z.of_nat (List.length A + List.length B))) None = C.
Proof.
  rewrite py_slice_start_pos by lia. rewrite Nat2Z.id, app_assoc, skipn_app, app_length, Nat.sub_diag.
  rewrite skipn_all2 by (rewrite app_length; lia). reflexivity.
Qed.
Lemma slice_half (c : ty) n : py_slice c None (Some (Z.of_nat n)) = firstn n c /\ py_slice c (Some (Z.of_nat n)) None = skipn n c.
Proof. rewrite py_slice_stop_pos, py_slice_start_pos by lia. now rewrite Nat2Z.id. Qed.

(** boxes with the reserved name are the rewriter's own: no outputs, an even number of inputs *)
Definition tok (b : box) : Prop :=
  b_name b = CUP_TOKEN -> exists d, b = Box CUP_TOKEN d [] 0 /\ List.length d = 4.
Lemma unres_tok b : unreserved b -> tok b.
Proof. intros H E. now apply unres_name in H. Qed.

Lemma contract_sound left right s1 s2 t1 t2 u1 u2 b L R off new :
  good left s1 t1 u1 -> good right s2 t2 u2 -> t1 ++ t2 = L ++ b_dom b ++ R -> List.length L = off ->
  box_ok b -> tok b -> (is_cup b = false -> b_name b <> CUP_TOKEN -> unreserved b) ->
  rc_contract left right off b = Ok new -> good new (s1 ++ s2) (L ++ b_cod b ++ R) (u1 ++ u2 ++ [b]).
Proof.
  intros Gl Gr E Hoff Ho Ht Hu H. unfold rc_contract in H.
  assert (Cl : cod left = t1) by apply Gl. assert (Cr : cod right = t2) by apply Gr.
  assert (Dl : dom left = s1) by apply Gl. assert (Dr : dom right = s2) by apply Gr.
  rewrite Cl, Cr, Dl, Dr, E in H. subst off. rewrite slice_l, slice_r in H by exact []. 
  destruct (String.eqb (b_name b) CUP_TOKEN || is_cup b) eqn:Ec.
  - (* cups *)
    assert (Hb : b_cod b = [] /\ word_of b = [] /\ exists n, 0 < n /\ List.length (b_dom b) = n + n /\ n <= weight b).
    { apply orb_prop in Ec. destruct Ec as [Ec|Ec].
      - apply String.eqb_eq in Ec. destruct (Ht Ec) as (d & -> & Ld). cbn [b_cod b_dom b_end word_of weight]. repeat split; auto.
        exists 2. rewrite Ld, String.eqb_refl. cbn. lia.
      - destruct b; try discriminate. cbn. repeat split; auto. exists 1. cbn. lia. }
    destruct Hb as (Hcod & Hw & n & Hn & Ln & Hwt). rewrite Hcod. cbn [app].
    rewrite Ln in H. replace ((n + n) / 2) with n in H.
    2:{ replace (n + n) with (n * 2) by lia. symmetry. apply Nat.div_mul. lia. }
    destruct (slice_half (b_dom b) n) as [-> ->] in H.
    assert (Lt1 : List.length (firstn n (b_dom b)) = n) by (rewrite firstn_length; lia).
    assert (Lt2 : List.length (skipn n (b_dom b)) = n) by (rewrite skipn_length; lia).
    destruct (Nat.eqb (List.length t1) n && Nat.eqb (List.length s1) 0) eqn:C1.
    + apply andb_prop in C1. destruct C1 as [C1 C2]. apply Nat.eqb_eq in C1. apply Nat.eqb_eq in C2.
      apply length_zero_iff_nil in C2. subst s1. cbn [app].
      match type of H with context[d_rotate ?k _] => set (z := k) in H end.
      pose proof (good_tensor (good_bend z Gl) (good_id R)) as G1. cbn [app] in G1. rewrite app_nil_r in G1.
      pose proof H as Ed. apply d_then_inv in Ed. destruct Ed as [Ed _]. rewrite Cr, dom_tensor in Ed. cbn [dom id d_rotate] in Ed.
      assert (dom (d_dagger left) = t1) as Edl by (rewrite d_dagger_eq by apply Gl; cbn; auto). rewrite Edl in Ed.
      rewrite <- Ed in G1. destruct (good_then Gr G1) as (c & Ec' & Gc). rewrite H in Ec'. injection Ec' as <-.
      rewrite rotz_nil in Gc. cbn [app] in Gc.
      assert (HL : L = []). { apply length_zero_iff_nil. apply (f_equal (@List.length _)) in E, Ed. rewrite !app_length, rot_length in *. lia. }
      subst L. cbn [app]. rewrite app_assoc. apply good_drop; auto. eapply good_swap_boxes; [|exact Gc]. apply Permutation_app_comm.
    + destruct (Nat.eqb (List.length t2) n && Nat.eqb (List.length s2) 0) eqn:C3.
      * apply andb_prop in C3. destruct C3 as [C3 C4]. apply Nat.eqb_eq in C3. apply Nat.eqb_eq in C4.
        apply length_zero_iff_nil in C4. subst s2. rewrite app_nil_r.
        match type of H with context[d_rotate ?k _] => set (z := k) in H end.
        pose proof (good_tensor (good_id L) (good_bend z Gr)) as G1. cbn [app] in G1.
        pose proof H as Ed. apply d_then_inv in Ed. destruct Ed as [Ed _]. rewrite Cl, dom_tensor in Ed. cbn [dom id d_rotate] in Ed.
        assert (dom (d_dagger right) = t2) as Edl by (rewrite d_dagger_eq by apply Gr; cbn; auto). rewrite Edl in Ed.
        rewrite <- Ed in G1. destruct (good_then Gl G1) as (c & Ec' & Gc). rewrite H in Ec'. injection Ec' as <-.
        rewrite rotz_nil in Gc.
        assert (HR : R = []). { apply length_zero_iff_nil. apply (f_equal (@List.length _)) in E, Ed. rewrite !app_length, rot_length in *. lia. }
        subst R. rewrite app_assoc. apply good_drop; auto.
      * destruct (cups _ _ _) as [nb|] eqn:Ecups; [|discriminate]. cbn [bind] in H.
        apply (cups_good (b := b)) in Ecups; try lia; auto. rewrite firstn_skipn in Ecups.
        pose proof (good_tensor (good_tensor (good_id L) Ecups) (good_id R)) as G1. rewrite <- app_assoc, app_nil_r in G1. cbn [app] in G1.
        rewrite <- E in G1. destruct (good_then (good_tensor Gl Gr) G1) as (c & Ec' & Gc). rewrite H in Ec'. injection Ec' as <-.
        now rewrite <- app_assoc in Gc.
  - apply orb_false_elim in Ec. destruct Ec as [Ec1 Ec2]. apply String.eqb_neq in Ec1.
    pose proof (good_tensor (good_tensor (good_id L) (good_box Ho (Hu Ec2 Ec1))) (good_id R)) as G1. rewrite <- !app_assoc in G1. cbn [app] in G1.
    rewrite <- E in G1. destruct (good_then (good_tensor Gl Gr) G1) as (c & Ec' & Gc). rewrite H in Ec'. injection Ec' as <-.
    rewrite ?app_nil_r, <- ?app_assoc in Gc. exact Gc.
Qed.

(** ... and it succeeds on everything but pairs of nested cups *)
Lemma contract_total left right b L R :
  wf left -> wf right -> cod left ++ cod right = L ++ b_dom b ++ R -> box_ok b -> b_name b <> CUP_TOKEN ->
  List.length L < List.length (cod left) \/ is_cup b = false ->
  (right = id [] \/ List.length (cod left) < List.length L + List.length (b_dom b)) ->
  exists new, rc_contract left right (List.length L) b = Ok new.
Proof.
  intros Wl Wr E Ho Hn Hlt Hmin. unfold rc_contract. rewrite E, slice_l, slice_r by exact [].
  apply String.eqb_neq in Hn. rewrite Hn. cbn [orb]. destruct (is_cup b) eqn:Ec.
  - destruct b; try discriminate. destruct Hlt as [Hlt|]; [|discriminate].
    change (b_dom (Cup l r rv)) with [l; r] in *. cbn [List.length] in *. change (Nat.div 2 2) with 1.
    change (py_slice [l; r] None (Some (Z.of_nat 1))) with [l]. change (py_slice [l; r] (Some (Z.of_nat 1)) None) with [r].
    rewrite !rot_single.
    assert (Hz : (rv = false /\ ty_eqb [rot_atom 1 l] [r] = true) \/ (rv = true /\ ty_eqb [rot_atom 1 l] [r] = false /\ [rot_atom (-1) l] = [r])).
    { cbn in Ho. destruct r as [n z]. destruct rv; subst l; cbn [rot_atom fst snd]; [right|left]; split; auto.
      - split.
        + match goal with |- ty_eqb ?x ?y = false => destruct (ty_eqb_spec x y) as [X|] end; auto. exfalso.
          injection X. unfold rot_atom. cbn. lia.
        + unfold rot_atom. cbn [fst snd]. f_equal. f_equal. lia.
      - apply ty_eqb_iff. unfold rot_atom. cbn [fst snd]. f_equal. f_equal. lia. }
    assert (Hl : exists x l', cod left = x :: l') by (destruct (cod left) as [|x l']; [cbn in Hlt; lia|eauto]).
    destruct Hl as (x & l' & Hl).
    destruct (Nat.eqb (List.length (cod left)) 1 && Nat.eqb (List.length (dom left)) 0) eqn:C1.
    + apply andb_prop in C1. destruct C1 as [C1 C2]. apply Nat.eqb_eq in C1. rewrite Hl in *.
      destruct l'; [|cbn in C1; lia]. destruct L; [|cbn in Hlt; lia]. cbn in E. injection E as -> Er.
      eexists. apply d_then_ok. rewrite Er, dom_tensor. cbn [dom id d_rotate]. rewrite d_dagger_eq by auto. cbn [dom].
      rewrite Hl, rot_single. destruct Hz as [[-> ->]|[-> [-> Hz]]].
      * cbn in Ho. subst l. destruct r; unfold rot_atom; cbn [fst snd app]. f_equal. f_equal. lia.
      * rewrite Hz. reflexivity.
    + destruct (Nat.eqb (List.length (cod right)) 1 && Nat.eqb (List.length (dom right)) 0) eqn:C3.
      * apply andb_prop in C3. destruct C3 as [C3 C4]. apply Nat.eqb_eq in C3.
        destruct Hmin as [->|Hmin]; [cbn in C3; lia|].
        assert (E2 : cod left = L ++ [l] /\ cod right = [r] /\ R = []).
        { assert (Lc : List.length (cod left) = List.length (L ++ [l])) by (rewrite app_length; cbn [List.length]; lia).
          change ([l; r] ++ R) with ([l] ++ (r :: R)) in E. rewrite app_assoc in E.
          destruct (app_len_inj E Lc) as [E1 E2]. split; auto. rewrite E2 in *. destruct R; [auto|cbn in C3; lia]. }
        destruct E2 as (E1 & E2 & ->). eexists. apply d_then_ok. rewrite E1, dom_tensor. cbn [dom id d_rotate].
        rewrite d_dagger_eq by auto. cbn [dom]. rewrite E2, rot_single. f_equal.
        destruct Hz as [[-> ->]|[-> [-> Hz]]].
        -- cbn in Ho. now subst l.
        -- cbn in Ho. now subst l.
      * assert (Cu : exists d, cups [l] [r] (negb (ty_eqb [r] [rot_atom 1 l])) = Ok d /\ dom d = [l; r]).
        { cbn in Ho. destruct Hz as [[-> Hz]|[-> [Hz Hz']]].
          - apply ty_eqb_iff in Hz. injection Hz as Hz. rewrite Hz, ty_eqb_refl. cbn [negb]. subst l. rewrite <- rot_single.
            rewrite cups_eq. eexists. split; [reflexivity|]. now rewrite rot_single.
          - destruct (ty_eqb_spec [r] [rot_atom 1 l]) as [X|X]; [rewrite X, ty_eqb_refl in Hz; discriminate|].
            cbn [negb]. subst l. rewrite cups_reversed_atomic. eexists. split; reflexivity. }
        destruct Cu as (d & -> & Dd). cbn [bind]. eexists. apply d_then_ok. rewrite !cod_tensor, !dom_tensor. cbn [dom id].
        rewrite E, Dd. now rewrite <- app_assoc.
  - eexists. apply d_then_ok. rewrite !cod_tensor, !dom_tensor. cbn [dom id]. rewrite E. unfold to_diag. cbn [dom]. now rewrite <- app_assoc.
Qed.

(** ** the lists of diagrams *)
Inductive goods : list diagram -> ty -> ty -> list box -> Prop :=
| goods_nil : goods [] [] [] []
| goods_cons d ds s t u s' t' u' : good d s t u -> goods ds s' t' u' -> goods (d :: ds) (s ++ s') (t ++ t') (u ++ u').
Lemma goods_app a s t u b s' t' u' : goods a s t u -> goods b s' t' u' -> goods (a ++ b) (s ++ s') (t ++ t') (u ++ u').
Proof.
  induction 1; intro G; cbn; auto. rewrite <- !app_assoc. constructor; auto.
Qed.
Lemma goods_app_inv a : forall b s t u, goods (a ++ b) s t u -> exists s1 s2 t1 t2 u1 u2, s = s1 ++ s2 /\ t = t1 ++ t2 /\ u = u1 ++ u2 /\
  goods a s1 t1 u1 /\ goods b s2 t2 u2.
Proof.
  induction a as [|d a IH]; intros b s t u G; cbn in *.
  - exists [], s, [], t, [], u. repeat split; auto. constructor.
  - inversion G as [|? ? s0 t0 u0 s' t' u' Gd Ga]; subst. destruct (IH _ _ _ _ Ga) as (s1 & s2 & t1 & t2 & u1 & u2 & -> & -> & -> & G1 & G2).
    exists (s0 ++ s1), s2, (t0 ++ t1), t2, (u0 ++ u1), u2. rewrite <- !app_assoc. repeat split; auto. constructor; auto.
Qed.
Lemma goods_tensor ds s t u : goods ds s t u -> forall d s0 t0 u0, good d s0 t0 u0 -> good (tensor_list d ds) (s0 ++ s) (t0 ++ t) (u0 ++ u).
Proof.
  setoid_rewrite tensor_list_fold. induction 1 as [|d' ds s t u s' t' u' G Gs IH]; intros d s0 t0 u0 Gd; cbn [fold_left].
  - now rewrite !app_nil_r.
  - rewrite !app_assoc. apply IH. now apply good_tensor.
Qed.

Lemma split_spec ds : forall off pre rest o, rc_split ds off = (pre, rest, o) ->
  ds = pre ++ rest /\ (forall s t u, goods pre s t u -> off = List.length t + o) /\
  (forall d more, rest = d :: more -> o < List.length (cod d)).
Proof.
  induction ds as [|d ds IH]; intros off pre rest o H; cbn in H.
  - injection H as <- <- <-. repeat split; auto; [|discriminate]. intros s t u G. inversion G. reflexivity.
  - destruct (Nat.leb_spec (List.length (cod d)) off) as [Hle|Hle].
    + destruct (rc_split ds _) as [[p q] o'] eqn:E. injection H as <- <- <-. destruct (IH _ _ _ _ E) as (-> & H2 & H3).
      repeat split; auto. intros s t u G. inversion G as [|? ? s0 t0 u0 s' t' u' Gd Ga]; subst. specialize (H2 _ _ _ Ga).
      destruct Gd as ((_ & _ & C) & _). rewrite app_length. rewrite C in *. lia.
    + injection H as <- <- <-. repeat split; auto. 
      * intros s t u G. inversion G. reflexivity.
      * intros d' more [= <- <-]. auto.
Qed.
Lemma gather_spec left : forall more right need s2 t2 u2 s t u, good right s2 t2 u2 -> goods more s t u ->
  need <= List.length (cod left) + List.length t2 + List.length t ->
  exists right' more' s3 t3 u3 s4 t4 u4, rc_gather left right need more = Ok (right', more') /\
    good right' (s2 ++ s3) (t2 ++ t3) (u2 ++ u3) /\ goods more' s4 t4 u4 /\ s = s3 ++ s4 /\ t = t3 ++ t4 /\ u = u3 ++ u4 /\
    need <= List.length (cod left) + List.length (t2 ++ t3) /\
    (right' = right \/ List.length (cod left) < need) /\
    exists mid, more = mid ++ more' /\ right' = fold_left tensor mid right /\ goods mid s3 t3 u3.
Proof.
  induction more as [|d more IH]; intros right need s2 t2 u2 s t u Gr Gm Hn; cbn [rc_gather];
    assert (Cr : cod right = t2) by apply Gr; rewrite app_length, Cr.
  - inversion Gm; subst. cbn in Hn. destruct (Nat.ltb_spec (List.length (cod left) + List.length (cod right)) need); [lia|].
    exists right, [], [], [], [], [], [], []. rewrite !app_nil_r. repeat split; auto; try apply Gr; try lia. exists []. repeat split. constructor.
  - destruct (Nat.ltb_spec (List.length (cod left) + List.length t2) need) as [Hlt|Hge].
    + inversion Gm as [|? ? s0 t0 u0 s' t' u' Gd Ga]; subst. rewrite app_length in Hn.
      destruct (IH (tensor right d) need _ _ _ _ _ _ (good_tensor Gr Gd) Ga) as (r' & m' & s3 & t3 & u3 & s4 & t4 & u4 & E & G1 & G2 & -> & -> & -> & L1 & L2 & mid & -> & Er & Gmid).
      { rewrite app_length. lia. }
      exists r', m', (s0 ++ s3), (t0 ++ t3), (u0 ++ u3), s4, t4, u4. rewrite !app_assoc in *. repeat split; auto; try apply G1.
      * right. lia.
      * exists (d :: mid). repeat split; auto. constructor; auto.
    + exists right, (d :: more), [], [], [], s, t, u. rewrite !app_nil_r. repeat split; auto; try apply Gr. exists []. repeat split. constructor.
Qed.

Definition step_ok (b : box) : Prop := box_ok b /\ tok b /\ (is_cup b = false -> b_name b <> CUP_TOKEN -> unreserved b).
(** the common part of one turn: everything up to the contraction succeeds *)
Lemma step_cases ds x s t u : goods ds s t u -> l_dom x = t -> step_ok (l_box x) ->
  (exists pre rest s1 t1 u1 s2 t2 u2, goods pre s1 t1 u1 /\ goods rest s2 t2 u2 /\ s = s1 ++ s2 /\ t = t1 ++ t2 /\ u = u1 ++ u2 /\
     b_dom (l_box x) = [] /\ l_left x = t1 /\ l_right x = t2 /\ rc_step ds x = Ok (pre ++ to_diag (l_box x) :: rest) /\ ds = pre ++ rest) \/
  (exists pre lft right more s1 t1 u1 sl tl ul sr tr ur s2 t2 u2 L R,
     goods pre s1 t1 u1 /\ good lft sl tl ul /\ good right sr tr ur /\ goods more s2 t2 u2 /\
     s = s1 ++ (sl ++ sr) ++ s2 /\ t = t1 ++ (tl ++ tr) ++ t2 /\ u = u1 ++ (ul ++ ur) ++ u2 /\
     tl ++ tr = L ++ b_dom (l_box x) ++ R /\ l_left x = t1 ++ L /\ l_right x = R ++ t2 /\
     List.length L < List.length (cod lft) /\ (right = id [] \/ List.length (cod lft) < List.length L + List.length (b_dom (l_box x))) /\
     rc_step ds x = (do new <- rc_contract lft right (List.length L) (l_box x); Ok (pre ++ new :: more)) /\
     exists mid sm tm um, goods mid sm tm um /\ ds = pre ++ lft :: mid ++ more /\ right = fold_left tensor mid (id [])).
Proof.
  intros G Hd Hok. destruct x as [[l b] r]. cbn [l_box l_left l_right l_dom] in *. unfold rc_step.
  destruct (rc_split ds (List.length l)) as [[pre rest] off] eqn:Es.
  destruct (split_spec Es) as (-> & H2 & H3).
  destruct (goods_app_inv G) as (s1 & s2 & t1 & t2 & u1 & u2 & -> & -> & -> & G1 & G2).
  specialize (H2 _ _ _ G1).
  destruct (Nat.eqb off 0 && Nat.eqb (List.length (b_dom b)) 0) eqn:C.
  - left. apply andb_prop in C. destruct C as [C1 C2]. apply Nat.eqb_eq in C1, C2. apply length_zero_iff_nil in C2.
    rewrite C2 in Hd. cbn [app] in Hd. destruct (app_len_inj Hd) as [-> ->]; [lia|].
    exists pre, rest, s1, t1, u1, s2, t2, u2. repeat split; auto.
  - right. destruct rest as [|lft more].
    { exfalso. inversion G2; subst. rewrite app_nil_r in Hd. apply (f_equal (@List.length _)) in Hd. rewrite !app_length in Hd.
      assert (off = 0 /\ List.length (b_dom b) = 0) as [Q1 Q2] by lia. rewrite Q1, Q2 in C. discriminate. }
    inversion G2 as [|? ? sl tl ul s' t' u' Gl Gm]; subst. specialize (H3 _ _ eq_refl).
    assert (Cl : cod lft = tl) by apply Gl.
    assert (Ll : exists L, l = t1 ++ L /\ List.length L = off).
    { symmetry in Hd. destruct (app_prefix Hd) as (m & E1 & E2); [lia|]. exists m. split; auto.
      apply (f_equal (@List.length _)) in E1. rewrite app_length in E1. lia. }
    destruct Ll as (L & -> & HL). rewrite <- app_assoc in Hd. apply app_inv_head in Hd.
    destruct (gather_spec (left := lft) (need := off + List.length (b_dom b)) (good_id []) Gm) as (right & more' & s3 & t3 & u3 & s4 & t4 & u4 & E & Gr & Gm' & -> & -> & -> & Hn & Hmin & mid & -> & Er & Gmid).
    { rewrite Cl. cbn. apply (f_equal (@List.length _)) in Hd. rewrite !app_length in Hd. lia. }
    cbn [app] in Gr, Hn. rewrite E. cbn [bind fst snd].
    assert (HR : exists R, tl ++ t3 = L ++ b_dom b ++ R /\ r = R ++ t4).
    { rewrite app_assoc in Hd. rewrite (app_assoc tl) in Hd. destruct (app_prefix Hd) as (m & E1 & E2).
      - rewrite !app_length in *; rewrite Cl in Hn; lia.
      - exists m. split; auto. now rewrite app_assoc. }
    destruct HR as (R & HR & ->).
    exists pre, lft, right, more', s1, t1, u1, sl, tl, ul, s3, t3, u3, s4, t4, u4, L, R.
    rewrite Cl in *. subst off. rewrite <- !app_assoc. repeat split; auto; try apply Gl; try apply Gr. exists mid, s3, t3, u3. auto.
Qed.
Lemma step_sound ds x s t u ds' : goods ds s t u -> l_dom x = t -> step_ok (l_box x) -> rc_step ds x = Ok ds' ->
  exists u', goods ds' s (l_cod x) u' /\ Permutation u' (u ++ [l_box x]).
Proof.
  intros G Hd Hok E. destruct (step_cases G Hd Hok) as [(pre & rest & s1 & t1 & u1 & s2 & t2 & u2 & G1 & G2 & -> & Ht & -> & B & L1 & L2 & E' & _)|
    (pre & lft & right & more & s1 & t1 & u1 & sl & tl & ul & sr & tr & ur & s2 & t2 & u2 & L & R & G1 & Gl & Gr & G2 & -> & Ht & -> & E1 & L1 & L2 & Hlt & Hmin & E' & _)].
  - rewrite E in E'. injection E' as ->. destruct x as [[l b] r]. cbn [l_box l_left l_right l_cod] in *. subst.
    assert (Gb : good (to_diag b) [] (b_cod b) [b]).
    { destruct Hok as (O & T & U). rewrite <- B. apply good_box; auto.
      destruct (String.eqb_spec (b_name b) CUP_TOKEN) as [Q|Q].
      - destruct (T Q) as (d & -> & Ld). cbn in B. subst d. cbn in Ld. lia.
      - destruct (is_cup b) eqn:Ec; auto. destruct b; try discriminate. }
    exists (u1 ++ [b] ++ u2). split.
    + change s2 with ([] ++ s2). apply goods_app; auto. now constructor.
    + rewrite <- app_assoc. apply Permutation_app_head, Permutation_app_comm.
  - rewrite E in E'. destruct (rc_contract lft right (List.length L) (l_box x)) as [new|] eqn:Ec; [|discriminate].
    cbn in E'. injection E' as ->. destruct Hok as (O & T & U).
    pose proof (contract_sound Gl Gr E1 eq_refl O T U Ec) as Gn.
    destruct x as [[l b] r]. cbn [l_box l_left l_right l_cod] in *. subst.
    exists (u1 ++ (ul ++ ur ++ [b]) ++ u2). split.
    + replace ((t1 ++ L) ++ b_cod b ++ R ++ t2) with (t1 ++ (L ++ b_cod b ++ R) ++ t2) by now rewrite <- !app_assoc.
      apply goods_app; auto. now constructor.
    + rewrite <- !app_assoc. apply Permutation_app_head, Permutation_app_head, Permutation_app_head.
      apply Permutation_app_comm.
Qed.
Lemma step_total ds x s t u : goods ds s t u -> l_dom x = t -> step_ok (l_box x) -> b_name (l_box x) <> CUP_TOKEN ->
  exists ds', rc_step ds x = Ok ds'.
Proof.
  intros G Hd Hok Hn. destruct (step_cases G Hd Hok) as [(pre & rest & s1 & t1 & u1 & s2 & t2 & u2 & G1 & G2 & -> & Ht & -> & B & L1 & L2 & E' & _)|
    (pre & lft & right & more & s1 & t1 & u1 & sl & tl & ul & sr & tr & ur & s2 & t2 & u2 & L & R & G1 & Gl & Gr & G2 & -> & Ht & -> & E1 & L1 & L2 & Hlt & Hmin & E' & _)].
  - eauto.
  - destruct (@contract_total lft right (l_box x) L R) as (new & Ec); auto; try apply Gl; try apply Gr.
    + replace (cod lft) with tl by (symmetry; apply Gl). replace (cod right) with tr by (symmetry; apply Gr). exact E1.
    + apply Hok.
    + rewrite E', Ec. cbn. eauto.
Qed.

(** ** the whole pass *)
Lemma pass_sound ls : forall ds s t t' u ds', goods ds s t u -> chain t ls t' -> All (fun x => step_ok (l_box x)) ls ->
  foldM rc_step ls ds = Ok ds' -> exists u', goods ds' s t' u' /\ Permutation u' (u ++ map l_box ls).
Proof.
  induction ls as [|x ls IH]; intros ds s t t' u ds' G C H E; cbn [foldM] in E.
  - cbn in C. injection E as <-. subst. exists u. cbn. rewrite app_nil_r. auto.
  - cbn in C, H. destruct C as [C1 C2], H as [H1 H2]. destruct (rc_step ds x) as [ds1|] eqn:E1; [|discriminate]. cbn [bind] in E.
    destruct (step_sound G (eq_sym C1) H1 E1) as (u1 & G1 & P1). destruct (IH _ _ _ _ _ _ G1 C2 H2 E) as (u2 & G2 & P2).
    exists u2. split; auto. rewrite P2, P1. cbn. now rewrite <- app_assoc.
Qed.
Lemma pass_total ls : forall ds s t t' u, goods ds s t u -> chain t ls t' ->
  All (fun x => step_ok (l_box x) /\ b_name (l_box x) <> CUP_TOKEN) ls -> exists ds', foldM rc_step ls ds = Ok ds'.
Proof.
  induction ls as [|x ls IH]; intros ds s t t' u G C H; cbn [foldM]; [eauto|].
  cbn in C, H. destruct C as [C1 C2], H as [[H1 H1'] H2]. destruct (step_total G (eq_sym C1) H1 H1') as (ds1 & E1). rewrite E1. cbn [bind].
  destruct (step_sound G (eq_sym C1) H1 E1) as (u1 & G1 & P1). eapply IH; eauto.
Qed.
Lemma once_sound d e : wf d -> All (fun x => step_ok (l_box x)) (layers d) -> remove_cups_once d = Ok e ->
  good e (dom d) (cod d) (boxes d).
Proof.
  intros [C _] H E. unfold remove_cups_once in E.
  assert (G0 : goods [id (dom d)] (dom d) (dom d) []).
  { pose proof (goods_cons (good_id (dom d)) goods_nil) as G. now rewrite !app_nil_r in G. }
  destruct (foldM rc_step (layers d) [id (dom d)]) as [ds|] eqn:Ef; [|discriminate]. cbn in E. injection E as <-.
  destruct (pass_sound G0 C H Ef) as (u & G & P). cbn [app] in P.
  pose proof (goods_tensor G (good_id [])) as Gt. cbn [app] in Gt. eapply good_swap_boxes; [exact P|exact Gt].
Qed.
Lemma once_total d : wf d -> All (fun x => step_ok (l_box x) /\ b_name (l_box x) <> CUP_TOKEN) (layers d) ->
  exists e, remove_cups_once d = Ok e.
Proof.
  intros [C _] H. unfold remove_cups_once.
  assert (G0 : goods [id (dom d)] (dom d) (dom d) []).
  { pose proof (goods_cons (good_id (dom d)) goods_nil) as G. now rewrite !app_nil_r in G. }
  destruct (pass_total G0 C H) as (ds & ->). cbn. eauto.
Qed.

(** ** compressing nested cups *)
Definition lc_step (ls : list layer) (x : layer) : list layer :=
  match ls with
  | (l0, b0, r0) :: ls' =>
      let '(l, b, r) := x in
      if is_cup b && is_cup b0 && (Z.of_nat (List.length l) =? Z.of_nat (List.length l0) - 1)%Z then
        (l, Box CUP_TOKEN (py_slice (b_dom b) None (Some 1%Z) ++ b_dom b0 ++ py_slice (b_dom b) (Some 1%Z) None) [] 0, r) :: ls'
      else x :: ls
  | [] => [x]
  end.
Definition strip (x : layer) : box * nat := (l_box x, List.length (l_left x)).
Lemma lc_step_strip ls x : compress_step (map strip ls) x = map strip (lc_step ls x).
Proof.
  destruct x as [[l b] r]. destruct ls as [|[[l0 b0] r0] ls]; cbn; auto.
  destruct (is_cup b && is_cup b0 && (Z.of_nat (List.length l) =? Z.of_nat (List.length l0) - 1)%Z); reflexivity.
Qed.
Definition lcompress (ls : list layer) : list layer := rev (fold_left lc_step ls []).
Lemma lcompress_strip ls : compress_list ls = map strip (lcompress ls).
Proof.
  unfold compress_list, lcompress. rewrite map_rev. f_equal.
  assert (G : forall acc, fold_left compress_step ls (map strip acc) = map strip (fold_left lc_step ls acc)).
  { induction ls as [|x ls IH]; intro acc; cbn [fold_left]; auto. rewrite lc_step_strip. apply IH. }
  apply (G []).
Qed.
(** boxes of a compressed diagram *)
Definition cbox (b : box) : Prop := box_ok b /\ (unreserved b \/ exists d, b = Box CUP_TOKEN d [] 0 /\ List.length d = 4).
Lemma cbox_ok b : cbox b -> step_ok b.
Proof.
  intros [O [H|(d & -> & Ld)]]; (split; [auto|split]).
  - now apply unres_tok.
  - auto.
  - intros _. eauto.
  - intros _ H. now destruct H.
Qed.
Lemma chain_snoc ls : forall s t x, chain s ls t -> t = l_dom x -> chain s (ls ++ [x]) (l_cod x).
Proof. induction ls as [|y ls IH]; cbn; intros s t x C E; [subst; auto|]. destruct C. split; auto. eapply IH; eauto. Qed.
Lemma chain_snoc_inv ls : forall s t x, chain s (ls ++ [x]) t -> chain s ls (l_dom x) /\ t = l_cod x.
Proof. induction ls as [|y ls IH]; cbn; intros s t x C; [intuition|]. destruct C as [C1 C2]. destruct (IH _ _ _ C2). auto. Qed.
Lemma lc_step_ok acc s t x : chain s (rev acc) t -> l_dom x = t -> All (fun y => cbox (l_box y)) acc -> cbox (l_box x) -> unreserved (l_box x) ->
  chain s (rev (lc_step acc x)) (l_cod x) /\ All (fun y => cbox (l_box y)) (lc_step acc x) /\
  ws (map l_box (lc_step acc x)) = ws (map l_box (x :: acc)) /\ wt (map l_box (lc_step acc x)) = wt (map l_box (x :: acc)).
Proof.
  intros C E A Bx Ux. destruct acc as [|[[l0 b0] r0] acc]; cbn [lc_step].
  - cbn in *. subst. auto.
  - destruct x as [[l b] r]. destruct (is_cup b && is_cup b0 && _) eqn:H.
    + apply andb_prop in H. destruct H as [H1 H2]. apply andb_prop in H1. destruct H1 as [H1 H3]. apply Z.eqb_eq in H2.
      destruct b as [| | |p0 p3 rv| | | | |]; try discriminate. destruct b0 as [| | |p1 p2 rv0| | | | |]; try discriminate.
      cbn [rev] in *. destruct (chain_snoc_inv C) as [C1 C2]. cbn [l_dom l_cod b_dom b_cod b_end app] in *.
      assert (P : l0 = l ++ [p0] /\ r0 = p3 :: r).
      { rewrite <- E in C2. change (p0 :: p3 :: r) with ([p0] ++ (p3 :: r)) in C2. rewrite app_assoc in C2.
        destruct (app_len_inj C2) as [Q1 Q2]; [rewrite app_length; cbn [List.length]; lia|auto]. }
      destruct P as [-> ->]. split; [|split; [|split]].
      * eapply chain_snoc; [exact C1|]. cbn. now rewrite <- app_assoc.
      * cbn in A. cbn. split; [|apply A]. split; [exact I|]. right. eexists. split; [reflexivity|]. reflexivity.
      * reflexivity.
      * unfold wt. cbn [map fold_right l_box weight]. rewrite Nat.add_assoc. f_equal.
    + cbn [rev]. split; [|split; [|split]]; auto. 
      * eapply chain_snoc; [exact C|auto].
      * cbn [All]. split; auto.
Qed.
Lemma lcompress_ok ls : forall acc s t t', chain s (rev acc) t -> chain t ls t' -> All (fun y => cbox (l_box y)) acc ->
  All (fun y => box_ok (l_box y) /\ unreserved (l_box y)) ls ->
  chain s (rev (fold_left lc_step ls acc)) t' /\ All (fun y => cbox (l_box y)) (fold_left lc_step ls acc) /\
  Permutation (ws (map l_box (fold_left lc_step ls acc))) (ws (map l_box (acc ++ ls))) /\
  wt (map l_box (fold_left lc_step ls acc)) = wt (map l_box (acc ++ ls)).
Proof.
  induction ls as [|x ls IH]; intros acc s t t' C1 C2 A H; cbn [fold_left].
  - cbn in C2. subst. rewrite app_nil_r. auto.
  - cbn in C2, H. destruct C2 as [C2 C3], H as [[H1 H2] H3].
    destruct (@lc_step_ok acc s t x) as (D1 & D2 & D3 & D4); auto; [split; auto|].
    destruct (IH _ _ _ _ D1 C3 D2 H3) as (I1 & I2 & I3 & I4). split; [exact I1|]. split; [exact I2|].
    rewrite I3, I4. rewrite !map_app, !ws_app, !wt_app, D3, D4. cbn [map]. change (l_box x :: map l_box ls) with ([l_box x] ++ map l_box ls).
    change (l_box x :: map l_box acc) with ([l_box x] ++ map l_box acc). rewrite !ws_app, !wt_app. split; [|lia].
    rewrite <- app_assoc. rewrite !app_assoc. apply Permutation_app_tail, Permutation_app_comm.
Qed.
Lemma then_fold ls : forall acc t, chain (cod acc) ls t ->
  foldM (fun acc '(b, o) => then_at acc (to_diag b) (Z.of_nat o)) (map strip ls) acc = Ok (Diag (dom acc) t (layers acc ++ ls)).
Proof.
  induction ls as [|x ls IH]; intros acc t C; cbn [map foldM].
  - cbn in C. subst. rewrite app_nil_r. now destruct acc.
  - cbn in C. destruct C as [C1 C2]. destruct x as [[l b] r]. cbn [strip l_box l_left].
    erewrite then_at_ok; [|exact C1|reflexivity]. cbn [bind]. rewrite (IH _ t); [|exact C2]. cbn. rewrite !app_nil_r, <- app_assoc. reflexivity.
Qed.
Lemma compress_spec d : wf d -> Forall unreserved (boxes d) ->
  exists e, compress_cups d = Ok e /\ wf e /\ dom e = dom d /\ cod e = cod d /\ All (fun x => cbox (l_box x)) (layers e) /\
    Permutation (ws (boxes e)) (ws (boxes d)) /\ wt (boxes e) = wt (boxes d) /\ layers e = lcompress (layers d).
Proof.
  intros [C B] U. unfold compress_cups. rewrite lcompress_strip.
  assert (H : All (fun y => box_ok (l_box y) /\ unreserved (l_box y)) (layers d)).
  { unfold boxes in U. clear C. induction (layers d); cbn in *; auto. inversion U; subst. tauto. }
  destruct (@lcompress_ok (layers d) [] (dom d) (dom d) (cod d)) as (I1 & I2 & I3 & I4); cbn; auto.
  fold (lcompress (layers d)) in I1. rewrite (then_fold (acc := id (dom d)) I1). cbn [app layers id dom].
  assert (A2 : All (fun x => cbox (l_box x)) (lcompress (layers d))) by (unfold lcompress; now apply All_rev).
  eexists. split; [reflexivity|]. cbn [dom cod layers boxes]. unfold wf. cbn [dom cod layers].
  split; [split; auto; eapply All_impl; [|exact A2]; now intros x []|]. split; auto. split; auto. split; auto.
  unfold boxes. cbn [layers]. unfold lcompress. rewrite map_rev. rewrite ws_rev, wt_rev. auto.
Qed.
Lemma lcompress_none ls : no_nested_cups ls -> lcompress ls = ls.
Proof.
  assert (G : forall ls x acc, no_nested_cups (x :: ls) -> fold_left lc_step ls (x :: acc) = rev ls ++ x :: acc).
  { clear. induction ls as [|y ls IH]; intros x acc H; cbn [fold_left]; auto.
    destruct H as [H1 H2]. assert (E : lc_step (x :: acc) y = y :: x :: acc).
    { destruct x as [[l0 b0] r0], y as [[l b] r]. cbn [lc_step]. destruct (is_cup b && is_cup b0 && _) eqn:E; auto. exfalso. apply H1.
      apply andb_prop in E. destruct E as [E1 E2]. apply andb_prop in E1. destruct E1 as [E1 E3]. apply Z.eqb_eq in E2.
      destruct b, b0; try discriminate. cbn. repeat split; auto. lia. }
    rewrite E. rewrite IH by exact H2. cbn [rev]. now rewrite <- app_assoc. }
  intro H. unfold lcompress. destruct ls as [|x ls]; auto. cbn [fold_left lc_step]. change (lc_step [] x) with [x]. rewrite (G ls x []) by exact H.
  rewrite rev_app_distr, rev_involutive. reflexivity.
Qed.

(** ** the rewriter *)
Lemma user_ok d : wf d -> Forall unreserved (boxes d) -> All (fun x => step_ok (l_box x) /\ b_name (l_box x) <> CUP_TOKEN) (layers d).
Proof.
  intros [_ B] U. unfold boxes in U. induction (layers d); cbn in *; auto. inversion U; subst. destruct B. split; auto.
  split; [|now apply unres_name]. split; auto. split; auto. now apply unres_tok.
Qed.
Lemma All_fst A (P Q : A -> Prop) l : All (fun x => P x /\ Q x) l -> All P l.
Proof. apply All_impl. tauto. Qed.
Lemma good_wt d s t u : good d s t u -> wt (boxes d) = bends d.
Proof.
  intros (_ & U & _). unfold bends, wt. f_equal. induction (boxes d); cbn; auto. inversion U; subst. f_equal; auto. now apply unres_weight.
Qed.
Lemma unres_wt d : Forall unreserved (boxes d) -> wt (boxes d) = bends d.
Proof. intro U. unfold bends, wt. f_equal. induction (boxes d); cbn; auto. inversion U; subst. f_equal; auto. now apply unres_weight. Qed.
Lemma first_pass d : wf d -> Forall unreserved (boxes d) ->
  exists a, remove_cups_once d = Ok a /\ typed a (dom d) (cod d) /\ Permutation (words a) (words d) /\ bends a <= bends d /\ Forall unreserved (boxes a).
Proof.
  intros W U. pose proof (user_ok W U) as H. destruct (once_total W H) as (a & E). exists a. split; auto.
  pose proof (once_sound W (All_fst H) E) as G. pose proof (good_wt G) as Ga. destruct G as (T & U' & P & L). repeat split; auto; try apply T.
  rewrite <- Ga, <- (unres_wt U). exact L.
Qed.
Lemma remove_cups_sound d e : wf d -> Forall unreserved (boxes d) -> remove_cups d = Ok e ->
  typed e (dom d) (cod d) /\ Permutation (words e) (words d) /\ bends e <= bends d.
Proof.
  intros W U E. unfold remove_cups in E. destruct (first_pass W U) as (a & Ea & (Wa & Da & Ca) & Pa & La & Ua). rewrite Ea in E. cbn [bind] in E.
  destruct (compress_spec Wa Ua) as (b & Eb & Wb & Db & Cb & Ab & Pb & Lb & _). rewrite Eb in E. cbn [bind] in E.
  assert (Hb : All (fun x => step_ok (l_box x)) (layers b)) by (eapply All_impl; [|exact Ab]; intros x; apply cbox_ok).
  pose proof (once_sound Wb Hb E) as G. pose proof (good_wt G) as Gw. destruct G as (T & U' & P & L). rewrite Db, Cb, Da, Ca in T.
  split; auto. split.
  - unfold words. fold (ws (boxes e)). rewrite P, Pb. exact Pa.
  - rewrite <- Gw. rewrite Lb in L. rewrite (unres_wt Ua) in L. lia.
Qed.
Lemma remove_cups_total d : wf d -> Forall unreserved (boxes d) ->
  (forall a, remove_cups_once d = Ok a -> no_nested_cups (layers a)) -> exists e, remove_cups d = Ok e.
Proof.
  intros W U N. unfold remove_cups. destruct (first_pass W U) as (a & Ea & (Wa & Da & Ca) & Pa & La & Ua). rewrite Ea. cbn [bind].
  destruct (compress_spec Wa Ua) as (b & Eb & Wb & Db & Cb & Ab & Pb & Lb & Elb). rewrite Eb. cbn [bind].
  rewrite (lcompress_none (N a Ea)) in Elb. apply once_total; auto. rewrite Elb. now apply user_ok.
Qed.
