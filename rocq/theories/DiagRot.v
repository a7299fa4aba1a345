(** Dagger and rotation of boxes and diagrams (lemmas only). *)
From Verif Require Import PyBase PyFacts TyModel TyFacts DiagModel DiagSpec DiagFacts.
Set Implicit Arguments.

Lemma rot_pair z a b : rot z [a; b] = if Z.odd z then [rot_atom z b; rot_atom z a] else [rot_atom z a; rot_atom z b].
Proof. unfold rot. now destruct (Z.odd z). Qed.
Lemma rot_repeat z a n : rot z (repeat a n) = repeat (rot_atom z a) n.
Proof.
  unfold rot. assert (H : rev (repeat a n) = repeat a n).
  { induction n; cbn; auto. rewrite IHn. symmetry. change (repeat a (S n)) with (a :: repeat a n).
    clear. induction n; cbn; auto. now rewrite <- IHn. }
  rewrite H. destruct (Z.odd z); apply map_repeat'.
Qed.

(** ** ends *)
Lemma b_end_rotate z b : forall top, b_end top (b_rotate z b) = rot z (b_end top b).
Proof.
  induction b using box_ind'; intro top; cbn [b_rotate b_end]; auto; try (destruct top; now rewrite ?rot_nil).
  - destruct (Z.odd z) eqn:E; destruct top; cbn; rewrite ?rot_pair, ?E, ?rot_nil; auto.
  - destruct (Z.odd z) eqn:E; destruct top; cbn; rewrite ?rot_pair, ?E, ?rot_nil; auto.
  - destruct (Z.odd z) eqn:E; destruct top; cbn; rewrite ?rot_pair, ?E, ?rot_nil; auto.
  - destruct top; now rewrite rot_repeat.
Qed.
Lemma b_dom_rotate z b : b_dom (b_rotate z b) = rot z (b_dom b).
Proof. apply b_end_rotate. Qed.
Lemma b_cod_rotate z b : b_cod (b_rotate z b) = rot z (b_cod b).
Proof. apply b_end_rotate. Qed.

Lemma b_end_dagger b top : b_end top (b_dagger b) = b_end (negb top) b.
Proof. destruct b; cbn; destruct top; reflexivity. Qed.
Lemma b_dom_dagger b : b_dom (b_dagger b) = b_cod b.
Proof. apply b_end_dagger. Qed.
Lemma b_cod_dagger b : b_cod (b_dagger b) = b_dom b.
Proof. apply b_end_dagger. Qed.

Lemma b_dagger_dagger b : b_dagger (b_dagger b) = b \/ exists x, b = Dagg x.
Proof. destruct b; cbn; rewrite ?negb_involutive; eauto. Qed.

Lemma l_dom_rotate z x : l_dom (l_rotate z x) = rot z (l_dom x).
Proof.
  destruct x as [[l b] r]. unfold l_rotate, rot_layer_with, l_dom.
  rewrite !rot_app. destruct (Z.odd z); rewrite b_dom_rotate; now rewrite ?app_assoc.
Qed.
Lemma l_cod_rotate z x : l_cod (l_rotate z x) = rot z (l_cod x).
Proof.
  destruct x as [[l b] r]. unfold l_rotate, rot_layer_with, l_cod.
  rewrite !rot_app. destruct (Z.odd z); rewrite b_cod_rotate; now rewrite ?app_assoc.
Qed.
Lemma l_box_rotate z x : l_box (l_rotate z x) = b_rotate z (l_box x).
Proof. destruct x as [[l b] r]. unfold l_rotate, rot_layer_with. now destruct (Z.odd z). Qed.

Lemma chain_rotate z ls d c : chain d ls c -> chain (rot z d) (map (l_rotate z) ls) (rot z c).
Proof.
  revert d. induction ls as [|x ls IH]; intro d; cbn; [intros ->; auto|].
  intros [-> H]. rewrite l_dom_rotate, l_cod_rotate. auto.
Qed.

Lemma odd_b2z rv z : Z.odd (b2z rv + z) = if rv then negb (Z.odd z) else Z.odd z.
Proof.
  rewrite Z.odd_add. unfold b2z. destruct rv; cbn; now destruct (Z.odd z).
Qed.

Lemma All_layer_eta (P : box -> Prop) ls :
  All (fun x : layer => let '(_, b, _) := x in P b) ls <-> All (fun x => P (l_box x)) ls.
Proof. split; apply All_impl; intros [[? ?] ?]; auto. Qed.

Lemma box_ok_rotate z : forall b, box_ok b -> box_ok (b_rotate z b).
Proof.
  assert (HF : forall cs,
    All (AllC (fun b => box_ok b -> box_ok (b_rotate z b))) cs -> All (comp_ok box_ok) cs ->
    All (comp_ok box_ok) (rev (map (rot_comp_with (b_rotate z) z) cs))).
  { intros cs H K. rewrite All_rev, All_map. revert H K.
    induction cs as [|x cs IH]; cbn; auto. intros [Hx H] [Kx K]. split; auto.
    destruct x as [b|d c ls]; cbn in *; auto. destruct Kx as [Ch Kb]. split.
    - now apply chain_rotate.
    - change (All (fun x : layer => let '(_, b, _) := x in box_ok b) (map (l_rotate z) ls)).
      rewrite All_layer_eta in *. rewrite All_map.
      eapply All_mp; [exact Kb|]. eapply All_impl; [|exact Hx].
      intros x0 Hx0 ?. rewrite l_box_rotate. auto. }
  intro b. induction b using box_ind'; cbn [b_rotate]; intro Hb; cbn in Hb; try solve [cbn; auto].
  - destruct (Z.odd z) eqn:E; cbn [box_ok]; rewrite odd_b2z, E.
    + subst l. destruct v; cbn [negb]; rewrite !rot_atom_add; f_equal; lia.
    + subst l. destruct v; cbn [negb]; rewrite !rot_atom_add; f_equal; lia.
  - destruct (Z.odd z) eqn:E; cbn [box_ok]; rewrite odd_b2z, E.
    + subst l. destruct v; cbn [negb]; rewrite !rot_atom_add; f_equal; lia.
    + subst l. destruct v; cbn [negb]; rewrite !rot_atom_add; f_equal; lia.
  - destruct (Z.odd z); exact I.
Qed.

Lemma wf_rotate z d : wf d -> wf (d_rotate z d).
Proof.
  intros [H B]. split; cbn; [now apply chain_rotate|].
  rewrite All_map. eapply All_impl; [|exact B]. intros x Hx. rewrite l_box_rotate.
  now apply box_ok_rotate.
Qed.

(** ** dagger *)
Lemma box_ok_dagger b : box_ok b -> box_ok (b_dagger b).
Proof. destruct b; cbn; auto; destruct rv; auto. Qed.
Lemma l_dom_dagger x : l_dom (l_dagger x) = l_cod x.
Proof. destruct x as [[l b] r]; cbn. now rewrite b_dom_dagger. Qed.
Lemma l_cod_dagger x : l_cod (l_dagger x) = l_dom x.
Proof. destruct x as [[l b] r]; cbn. now rewrite b_cod_dagger. Qed.
Lemma l_box_dagger x : l_box (l_dagger x) = b_dagger (l_box x).
Proof. destruct x as [[l b] r]; reflexivity. Qed.

Lemma chain_dagger ls d c : chain d ls c -> chain c (map l_dagger (rev ls)) d.
Proof.
  revert d. induction ls as [|x ls IH]; intro d; cbn; [auto|].
  intros [-> H]. rewrite map_app. eapply chain_app_i; [apply IH, H|].
  cbn. now rewrite l_dom_dagger, l_cod_dagger.
Qed.

Lemma d_dagger_eq d : wf d -> d_dagger d = Diag (cod d) (dom d) (map l_dagger (rev (layers d))).
Proof.
  intros [H _]. unfold d_dagger. destruct d as [a b ls]; cbn in *. destruct ls; [|reflexivity].
  cbn in *. now subst.
Qed.
Lemma wf_dagger d : wf d -> wf (d_dagger d).
Proof.
  intro W. rewrite (d_dagger_eq W). destruct W as [H B]. split; cbn.
  - now apply chain_dagger.
  - rewrite All_map, All_rev. eapply All_impl; [|exact B]. intros x Hx.
    rewrite l_box_dagger. now apply box_ok_dagger.
Qed.

Lemma b_dagger_invol b : dag_normal b -> b_dagger (b_dagger b) = b.
Proof.
  destruct b as [| | | | | |b| |]; cbn; rewrite ?negb_involutive; auto. destruct b; cbn; tauto.
Qed.
Lemma l_dagger_invol x : dag_normal (l_box x) -> l_dagger (l_dagger x) = x.
Proof. destruct x as [[l b] r]; cbn. intro H. now rewrite b_dagger_invol. Qed.

Lemma d_dagger_invol d : wf d -> All (fun x => dag_normal (l_box x)) (layers d) -> d_dagger (d_dagger d) = d.
Proof.
  intros W N. rewrite (d_dagger_eq (wf_dagger W)), (d_dagger_eq W). cbn.
  rewrite <- map_rev, rev_involutive, map_map. destruct d as [s t ls]; cbn in *. f_equal.
  clear W. induction ls as [|x ls IH]; cbn in *; auto. destruct N as [Nx N].
  now rewrite l_dagger_invol, IH.
Qed.

Lemma d_dagger_then a b c : wf a -> wf b -> d_then a b = Ok c ->
  d_then (d_dagger b) (d_dagger a) = Ok (d_dagger c).
Proof.
  intros Wa Wb H. pose proof (wf_then Wa Wb H) as Wc.
  apply d_then_inv in H as [E ->].
  rewrite (d_dagger_eq Wa), (d_dagger_eq Wb), (d_dagger_eq Wc).
  rewrite d_then_ok by (cbn; congruence). cbn. now rewrite rev_app_distr, map_app.
Qed.

(** ** rotation laws *)
Lemma rot_atom_neg a x : rot_atom (- a) (rot_atom a x) = x.
Proof. rewrite rot_atom_add. replace (- a + a)%Z with 0%Z by lia. apply rot_atom_0. Qed.
Lemma rot_neg a t : rot (- a) (rot a t) = t.
Proof. rewrite rot_add. replace (- a + a)%Z with 0%Z by lia. apply rot_0. Qed.
Lemma odd_opp z : Z.odd (- z) = Z.odd z.
Proof. apply Z.odd_opp. Qed.

Lemma l_rot_with_comp f g h z y x :
  g (f (l_box x)) = h (l_box x) ->
  rot_layer_with g y (rot_layer_with f z x) = rot_layer_with h (y + z) x.
Proof.
  destruct x as [[l b] r]; cbn [l_box]; intro E. unfold rot_layer_with.
  rewrite Z.odd_add. destruct (Z.odd z), (Z.odd y); cbn; rewrite E, !rot_add; reflexivity.
Qed.

(** boxes whose flag/wrapper shape is what constructors produce need no restriction *)
Lemma b_rotate_neg a : forall b, b_rotate (- a) (b_rotate a b) = b.
Proof.
  assert (HF : forall cs, All (AllC (fun b => b_rotate (- a) (b_rotate a b) = b)) cs ->
    rev (map (rot_comp_with (b_rotate (- a)) (- a)) (rev (map (rot_comp_with (b_rotate a) a) cs))) = cs).
  { intros cs H. rewrite map_rev, rev_involutive, map_map. induction cs as [|x cs IH]; cbn; auto.
    destruct H as [Hx H]. rewrite IH by auto. f_equal. destruct x as [b|d c ls]; cbn in *; [now rewrite Hx|].
    rewrite !rot_neg. f_equal. rewrite map_map. clear -Hx.
    induction ls as [|[[l b] r] ls IH]; cbn in *; auto. destruct Hx as [Hx H]. rewrite IH by auto. f_equal.
    unfold rot_layer_with. destruct (Z.odd a) eqn:E; rewrite odd_opp, E, Hx, !rot_neg; reflexivity. }
  intro b. induction b using box_ind'; cbn [b_rotate].
  - rewrite !rot_neg. f_equal; lia.
  - rewrite !rot_neg. f_equal; lia.
  - destruct (Z.odd a) eqn:E; cbn [b_rotate]; rewrite odd_opp, E, !rot_atom_neg; f_equal;
      rewrite !odd_b2z, odd_opp, E; now destruct v.
  - destruct (Z.odd a) eqn:E; cbn [b_rotate]; rewrite odd_opp, E, !rot_atom_neg; f_equal;
      rewrite !odd_b2z, odd_opp, E; now destruct v.
  - destruct (Z.odd a) eqn:E; cbn [b_rotate]; rewrite odd_opp, E, !rot_atom_neg; reflexivity.
  - now rewrite rot_atom_neg.
  - now rewrite IHb.
  - rewrite !rot_neg, HF by auto. f_equal; lia.
  - rewrite !rot_neg, HF by auto. f_equal; lia.
Qed.

Lemma rev_short A (l : list A) : List.length l <= 1 -> rev l = l.
Proof. destruct l as [|x [|y l]]; cbn; auto; lia. Qed.

Lemma b_rotate_add a c : forall b, small_frames b -> b_rotate c (b_rotate a b) = b_rotate (c + a) b.
Proof.
  assert (HF : forall cs, List.length cs <= 1 ->
    All (AllC (fun b => small_frames b -> b_rotate c (b_rotate a b) = b_rotate (c + a) b)) cs ->
    All (comp_sf small_frames) cs ->
    rev (map (rot_comp_with (b_rotate c) c) (rev (map (rot_comp_with (b_rotate a) a) cs))) =
    rev (map (rot_comp_with (b_rotate (c + a)) (c + a)) cs)).
  { intros cs Hl H K. rewrite map_rev, rev_involutive, map_map.
    rewrite rev_short by (rewrite map_length; lia). clear Hl.
    induction cs as [|x cs IH]; cbn; auto. destruct H as [Hx H], K as [Kx K].
    rewrite IH by auto. f_equal. destruct x as [b|d e ls]; cbn in *; [now rewrite Hx|].
    rewrite !rot_add. f_equal. rewrite map_map.
    change (All (fun x : layer => let '(_, b, _) := x in small_frames b) ls) in Kx.
    rewrite All_layer_eta in Kx. clear -Hx Kx.
    induction ls as [|x ls IH]; cbn in *; auto. destruct Hx as [Hx H], Kx as [Kx K].
    rewrite IH by auto. f_equal. apply l_rot_with_comp. auto. }
  intro b. induction b using box_ind'; cbn [b_rotate]; intro Hs; cbn in Hs.
  - rewrite !rot_add. f_equal; lia.
  - rewrite !rot_add. f_equal; lia.
  - rewrite Z.odd_add. destruct (Z.odd a) eqn:E, (Z.odd c) eqn:F; cbn [b_rotate]; rewrite ?E, ?F, !rot_atom_add; cbn; f_equal;
      rewrite !odd_b2z, Z.odd_add, E, F; now destruct v.
  - rewrite Z.odd_add. destruct (Z.odd a) eqn:E, (Z.odd c) eqn:F; cbn [b_rotate]; rewrite ?E, ?F, !rot_atom_add; cbn; f_equal;
      rewrite !odd_b2z, Z.odd_add, E, F; now destruct v.
  - rewrite Z.odd_add. destruct (Z.odd a) eqn:E, (Z.odd c) eqn:F; cbn [b_rotate]; rewrite ?E, ?F, !rot_atom_add; reflexivity.
  - now rewrite rot_atom_add.
  - now rewrite IHb.
  - destruct Hs. rewrite !rot_add, HF by auto. f_equal; lia.
  - destruct Hs. rewrite !rot_add, HF by auto. f_equal; lia.
Qed.
Lemma b_rotate_0 b : small_frames b -> b_rotate 0 b = b.
Proof.
  intro H. rewrite <- (b_rotate_neg 0 b) at 2.
  now rewrite b_rotate_add.
Qed.

Lemma d_rotate_neg a d : d_rotate (- a) (d_rotate a d) = d.
Proof.
  destruct d as [s t ls]. unfold d_rotate; cbn. rewrite !rot_neg, map_map. f_equal.
  rewrite <- (map_id ls) at 2. apply map_ext. intros [[l b] r].
  unfold l_rotate, rot_layer_with. destruct (Z.odd a) eqn:E; rewrite odd_opp, E, b_rotate_neg, !rot_neg; reflexivity.
Qed.
Lemma d_rotate_add a c d : All (fun x => small_frames (l_box x)) (layers d) ->
  d_rotate c (d_rotate a d) = d_rotate (c + a) d.
Proof.
  destruct d as [s t ls]. unfold d_rotate; cbn. intro H. rewrite !rot_add, map_map. f_equal.
  induction ls as [|x ls IH]; cbn in *; auto. destruct H as [Hx H]. rewrite IH by auto. f_equal.
  unfold l_rotate. apply l_rot_with_comp. now apply b_rotate_add.
Qed.
Lemma d_rotate_0 d : All (fun x => small_frames (l_box x)) (layers d) -> d_rotate 0 d = d.
Proof.
  intro H. rewrite <- (d_rotate_neg 0 d) at 2. now rewrite d_rotate_add.
Qed.

Lemma b_rotate_dagger z b : b_rotate z (b_dagger b) = b_dagger (b_rotate z b).
Proof.
  destruct b; cbn; auto.
  - destruct (Z.odd z) eqn:E; cbn; f_equal; rewrite !odd_b2z, E; now destruct rv.
  - destruct (Z.odd z) eqn:E; cbn; f_equal; rewrite !odd_b2z, E; now destruct rv.
  - destruct (Z.odd z); reflexivity.
Qed.
Lemma l_rotate_dagger z x : l_rotate z (l_dagger x) = l_dagger (l_rotate z x).
Proof.
  destruct x as [[l b] r]. unfold l_rotate, rot_layer_with; cbn.
  destruct (Z.odd z); cbn; now rewrite b_rotate_dagger.
Qed.
Lemma d_rotate_dagger z d : wf d -> d_rotate z (d_dagger d) = d_dagger (d_rotate z d).
Proof.
  intro W. rewrite (d_dagger_eq W), (d_dagger_eq (wf_rotate z W)).
  unfold d_rotate; cbn. f_equal. rewrite <- map_rev, !map_map. apply map_ext, l_rotate_dagger.
Qed.

Lemma rotate_then z a b c : d_then a b = Ok c -> d_then (d_rotate z a) (d_rotate z b) = Ok (d_rotate z c).
Proof.
  intro H. apply d_then_inv in H as [E ->]. rewrite d_then_ok by (cbn; congruence).
  unfold d_rotate; cbn. now rewrite map_app.
Qed.

(** refutation: frames with two components *)
Definition two_frame : box :=
  Frame "f" [] [] [CBox (Box "a" [] [] 0); CBox (Box "b" [] [] 0)] 0.
Lemma two_frame_rot0 : b_rotate 0 two_frame <> two_frame.
Proof. cbn. intro H. discriminate H. Qed.

(** ** everything the API builds is well typed *)
Lemma wf_then_list a ds c : wf a -> Forall wf ds -> then_list a ds = Ok c -> wf c.
Proof.
  rewrite then_list_fold. revert a. induction ds as [|d ds IH]; cbn; intros a Wa Wd H.
  - now inversion H; subst.
  - inversion Wd as [|? ? W1 W2]; subst. destruct (d_then a d) as [x|e] eqn:E; cbn in H; [|discriminate].
    exact (IH x (wf_then Wa W1 E) W2 H).
Qed.

Section BuiltInd.
  Variable P : diagram -> Prop.
  Hypothesis H1 : forall t, P (id t).
  Hypothesis H2 : forall b, box_ok b -> P (to_diag b).
  Hypothesis H3 : forall a b c, P a -> P b -> d_then a b = Ok c -> P c.
  Hypothesis H4 : forall a b, P a -> P b -> P (tensor a b).
  Hypothesis H5 : forall a ds, P a -> Forall P ds -> P (tensor_list a ds).
  Hypothesis H6 : forall a ds c, P a -> Forall P ds -> then_list a ds = Ok c -> P c.
  Hypothesis H7 : forall a b i c, P a -> P b -> then_at a b i = Ok c -> P c.
  Hypothesis H8 : forall a, P a -> P (d_dagger a).
  Hypothesis H9 : forall z a, P a -> P (d_rotate z a).
  Fixpoint built_ind' d (H : built d) : P d :=
    let go := fix go ds (H : Forall built ds) : Forall P ds :=
      match H with
      | Forall_nil _ => Forall_nil _
      | Forall_cons x Hx Hl => Forall_cons x (built_ind' Hx) (go _ Hl)
      end in
    match H with
    | built_id t => H1 t
    | built_box b Hb => H2 b Hb
    | built_then Ha Hb E => H3 (built_ind' Ha) (built_ind' Hb) E
    | built_tensor Ha Hb => H4 (built_ind' Ha) (built_ind' Hb)
    | built_tensor_list Ha Hb => H5 (built_ind' Ha) (go _ Hb)
    | built_then_list Ha Hb E => H6 (built_ind' Ha) (go _ Hb) E
    | built_then_at i Ha Hb E => H7 i (built_ind' Ha) (built_ind' Hb) E
    | built_dagger Ha => H8 (built_ind' Ha)
    | built_rotate z Ha => H9 z (built_ind' Ha)
    end.
End BuiltInd.

Lemma built_wf d : built d -> wf d.
Proof.
  apply built_ind'.
  - exact wf_id.
  - exact wf_to_diag.
  - exact wf_then.
  - exact wf_tensor.
  - exact wf_tensor_list.
  - exact wf_then_list.
  - intros a b i c. apply wf_then_at.
  - exact wf_dagger.
  - intros z a. apply wf_rotate.
Qed.
