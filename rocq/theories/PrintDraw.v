(** Lemmas about the text printer: the drawing of the layers (C66). *)
From Coq Require Import Ascii Permutation Sorted Lia.
From Verif Require Import PyBase PyFacts TyModel DiagModel DiagSpec DiagMisc PrintModel PrintSpec PrintFacts PrintTracks.
Close Scope string_scope. Set Implicit Arguments. Unset Strict Implicit.

(** ** Reading a line *)
Ltac cmp := repeat match goal with
  | |- context [(?a <? ?b)%nat] => destruct (Nat.ltb_spec a b)
  | |- context [(?a =? ?b)%nat] => destruct (Nat.eqb_spec a b)
  | |- context [(?a <=? ?b)%nat] => destruct (Nat.leb_spec a b) end.
Lemma at_app l l' c : at_col (l ++ l') c = if (c <? List.length l)%nat then at_col l c else at_col l' (c - List.length l).
Proof. unfold at_col. destruct (c <? List.length l)%nat eqn:E; [apply Nat.ltb_lt in E; now apply app_nth1 | apply Nat.ltb_ge in E; now apply app_nth2]. Qed.
Lemma at_cons x l c : at_col (x :: l) c = if (c =? 0)%nat then x else at_col l (c - 1).
Proof. unfold at_col. destruct c; cbn; [reflexivity|]. now rewrite Nat.sub_0_r. Qed.
Lemma at_nil c : at_col [] c = SP.
Proof. unfold at_col. now destruct c. Qed.
Lemma at_over l c : List.length l <= c -> at_col l c = SP.
Proof. intros H. unfold at_col. now apply nth_overflow. Qed.
Lemma at_repeat g n c : at_col (repeat g n) c = if (c <? n)%nat then g else SP.
Proof. revert c; induction n as [|n IH]; intros c; [now rewrite at_nil; destruct c|]. cbn [repeat]. rewrite at_cons, IH. destruct c; [reflexivity|]. cbn [Nat.eqb Nat.sub]. rewrite Nat.sub_0_r. reflexivity. Qed.
Lemma at_ljust l n c : at_col (ljust l n SP) c = at_col l c.
Proof. unfold ljust. rewrite at_app, at_repeat. destruct (c <? List.length l)%nat eqn:E; [reflexivity|]. apply Nat.ltb_ge in E. rewrite (at_over E). now destruct (_ <? _)%nat. Qed.
Lemma at_ljust_g l n f c : at_col (ljust l n f) c = if (c <? List.length l)%nat then at_col l c else if (c <? n)%nat then f else SP.
Proof. unfold ljust. rewrite at_app, at_repeat. cmp; try reflexivity; lia. Qed.
Lemma ljust_len l n f : List.length (ljust l n f) = Nat.max (List.length l) n.
Proof. unfold ljust. rewrite app_length, repeat_length. lia. Qed.
Lemma center1 g n f : 1 <= n -> center [g] n f = repeat f ((n - 1) / 2) ++ g :: repeat f (n - 1 - (n - 1) / 2).
Proof.
  intros H. unfold center. cbn [List.length]. assert (E : Nat.odd (n - 1) && Nat.odd n = false).
  { destruct n; [lia|]. rewrite Nat.sub_succ, Nat.sub_0_r, Nat.odd_succ. rewrite <- Nat.negb_odd. now destruct (Nat.odd n). }
  rewrite E, Nat.add_0_r, Nat.div2_div. reflexivity.
Qed.
(** ** Blocks: the wires of a layer from left to right *)
Inductive block := BId (w : nat) | BM (m : morph).
Definition b_flat (b : block) : list nat := match b with BId w => [w] | BM m => [m_start m; m_end m] end.
Definition b_morph (b : block) : list morph := match b with BId _ => [] | BM m => [m] end.
Definition b_types (b : block) : list (nat * mtype) := match b with BId w => [(w, TId)] | BM m => [(m_start m, TStart); (m_end m, if m_cup m then TCup else TSwap)] end.

Lemma decompose len : forall W layer, List.length W <= len -> incr W -> sorted layer ->
  (forall m, In m layer -> m_start m < m_end m /\ In (m_start m) W /\ In (m_end m) W /\ forall w, In w W -> ~ (m_start m < w < m_end m)) ->
  exists bl, W = flat_map b_flat bl /\ layer = flat_map b_morph bl.
Proof.
  induction len as [|len IH]; intros W layer L I S A.
  - destruct W; [|cbn in L; lia]. exists []. split; [reflexivity|]. destruct layer as [|m layer]; [reflexivity|]. destruct (A m (or_introl eq_refl)) as (_ & [] & _).
  - destruct W as [|w W].
    { exists []. split; [reflexivity|]. destruct layer as [|m layer]; [reflexivity|]. destruct (A m (or_introl eq_refl)) as (_ & [] & _). }
    apply StronglySorted_inv in I. destruct I as [I Fw]. rewrite Forall_forall in Fw. cbn [List.length] in L.
    assert (Skip : (forall m, In m layer -> m_start m <> w) -> exists bl, w :: W = flat_map b_flat bl /\ layer = flat_map b_morph bl).
    { intros Ns. destruct (IH W layer) as (bl & E1 & E2); [lia | exact I | exact S | |exists (BId w :: bl); cbn; split; congruence].
      intros m Hm. destruct (A m Hm) as (Lm & [E | Is] & Ie & Nb); [exfalso; now apply (Ns m Hm)|]. split; [exact Lm|]. split; [exact Is|]. split.
      - destruct Ie as [E | Ie]; [|exact Ie]. specialize (Fw _ Is). lia.
      - intros w' Hw'. apply Nb. now right. }
    destruct layer as [|m layer]; [apply Skip; intros m []|].
    destruct (A m (or_introl eq_refl)) as (Lm & [E | Is] & Ie & Nb).
    + destruct Ie as [Ie | Ie]; [lia|]. destruct W as [|e W]; [destruct Ie|]. apply StronglySorted_inv in I. destruct I as [I Fe]. rewrite Forall_forall in Fe.
      assert (Ee : e = m_end m). { destruct Ie as [-> | Ie]; [reflexivity|]. exfalso. apply (Nb e); [now right; left|]. specialize (Fe _ Ie). specialize (Fw e (or_introl eq_refl)). lia. }
      apply StronglySorted_inv in S. destruct S as [S Fm]. rewrite Forall_forall in Fm. destruct (IH W layer) as (bl & E1 & E2); [cbn in L; lia | exact I | exact S | |exists (BM m :: bl); cbn; split; congruence].
      intros m' Hm'. destruct (A m' (or_intror Hm')) as (Lm' & Is' & Ie' & Nb'). specialize (Fm m' Hm'). cbn in Fm. split; [exact Lm'|].
      assert (Q : forall x, In x (w :: e :: W) -> m_end m < x -> In x W). { intros x [? | [? | ?]] ?; [lia | lia | assumption]. }
      split; [apply Q; [exact Is' | lia]|]. split; [apply Q; [exact Ie' | lia]|]. intros w' Hw'. apply Nb'. now right; right.
    + apply Skip. intros m' [<- | Hm'].
      * specialize (Fw _ Is). lia.
      * apply StronglySorted_inv in S. destruct S as [_ Fm]. rewrite Forall_forall in Fm. specialize (Fm m' Hm'). cbn in Fm. specialize (Fw _ Is). lia.
Qed.
Lemma set_key_mid A (P : list (nat * A)) w v v' Q : ~ In w (map fst P) -> set_key w v (P ++ (w, v') :: Q) = P ++ (w, v) :: Q.
Proof.
  induction P as [|[i x] P IH]; cbn; intros N; [now rewrite Nat.eqb_refl|]. destruct (Nat.eqb_spec i w); [tauto|]. rewrite IH by tauto. reflexivity.
Qed.
Lemma wire_types_blocks bl : forall P, NoDup (map fst P ++ flat_map b_flat bl) ->
  fold_left (fun ts m => set_key (m_end m) (if m_cup m then TCup else TSwap) (set_key (m_start m) TStart ts)) (flat_map b_morph bl) (P ++ map (fun w => (w, TId)) (flat_map b_flat bl)) = P ++ flat_map b_types bl.
Proof.
  induction bl as [|b bl IH]; intros P N; [reflexivity|]. destruct b as [w | m].
  - cbn [flat_map b_flat b_morph b_types app map]. change (P ++ (w, TId) :: ?x) with (P ++ [(w, TId)] ++ x). rewrite !app_assoc. apply (IH (P ++ [(w, TId)])).
    rewrite map_app, <- app_assoc. exact N.
  - cbn [flat_map b_flat b_morph b_types app map fold_left] in *. assert (N1 := N). apply NoDup_remove_2 in N1. rewrite set_key_mid by (intros H; apply N1; rewrite in_app_iff; auto).
    change (P ++ (m_start m, TStart) :: (m_end m, TId) :: ?x) with (P ++ [(m_start m, TStart)] ++ (m_end m, TId) :: x). rewrite app_assoc.
    assert (N2 := N). change (map fst P ++ m_start m :: m_end m :: ?x) with (map fst P ++ [m_start m] ++ m_end m :: x) in N2. rewrite app_assoc in N2. assert (N3 := N2). apply NoDup_remove_2 in N3.
    rewrite set_key_mid by (intros H; apply N3; rewrite in_app_iff; left; rewrite map_app in H; exact H).
    change (P ++ (m_start m, TStart) :: ?y :: ?x) with (P ++ [(m_start m, TStart)] ++ [y] ++ x).
    replace ((P ++ [(m_start m, TStart)]) ++ (m_end m, if m_cup m then TCup else TSwap) :: map (fun w => (w, TId)) (flat_map b_flat bl)) with ((P ++ [(m_start m, TStart); (m_end m, if m_cup m then TCup else TSwap)]) ++ map (fun w => (w, TId)) (flat_map b_flat bl)) by (rewrite <- !app_assoc; reflexivity).
    rewrite IH; [rewrite <- !app_assoc; reflexivity|]. rewrite map_app. cbn [map fst]. rewrite <- app_assoc in *. exact N2.
Qed.

Section Draw.
  Variable col : nat -> nat.
  Notation mid := (middle col).
  Definition wmap (W : list nat) : list (nat * nat) := map (fun w => (w, col w)) W.
  Lemma lookup_wmap W w : In w W -> lookup w (wmap W) = Some (col w).
  Proof. unfold wmap. induction W as [|x W IH]; cbn; [intros []|]. intros H. destruct (Nat.eqb_spec x w) as [->|]; [reflexivity|]. destruct H; [congruence | auto]. Qed.
  Definition lo (b : block) : nat := match b with BId w => col w | BM m => col (m_start m) end.
  Definition hi (b : block) : nat := match b with BId w => col w | BM m => col (m_end m) end.
  Definition g_top (b : block) (c : nat) : glyph := match b with
    | BId _ => GBar
    | BM m => if (c =? col (m_start m))%nat then GBL else if (c =? col (m_end m))%nat then GBR else if m_cup m then GLine else if (c =? mid m)%nat then GTR else GLine end.
  Definition g_bot (b : block) (c : nat) : glyph := match b with
    | BId _ => GBar
    | BM m => if m_cup m then SP else if (c =? col (m_start m))%nat then GTL else if (c =? col (m_end m))%nat then GTR else if (c =? mid m)%nat then GBL else GLine end.
  Definition inb (b : block) (c : nat) : bool := (lo b <=? c)%nat && (c <=? hi b)%nat.
  Fixpoint find (g : block -> nat -> glyph) (bl : list block) (c : nat) : option glyph := match bl with [] => None | b :: bl' => if inb b c then Some (g b c) else find g bl' c end.
  Definition b_ok (b : block) : Prop := match b with BId _ => True | BM m => col (m_start m) + 2 <= col (m_end m) end.

  Lemma draw_block two W b l0 l1 : (forall w, In w (b_flat b) -> In w W) -> b_ok b -> List.length l0 <= lo b -> List.length l1 <= List.length l0 ->
    exists l0' l1', foldM (draw_wire two (wmap W)) (b_types b) (l0, l1) = Ok (l0', l1') /\ List.length l0' = S (hi b) /\ List.length l1' <= List.length l0' /\
      (forall c, at_col l0' c = if inb b c then g_top b c else at_col l0 c) /\ (two = true -> forall c, at_col l1' c = if inb b c then g_bot b c else at_col l1 c).
  Proof.
    intros F O L0 L1. destruct b as [w | m]; cbn [b_types foldM bind b_flat lo hi b_ok] in *.
    - unfold draw_wire. cbn [fst snd]. rewrite (lookup_wmap (F w (or_introl eq_refl))). do 2 eexists. split; [reflexivity|]. split; [rewrite app_length, ljust_len; cbn; lia|]. split; [|split].
      + destruct two; rewrite !app_length, !ljust_len; cbn; lia.
      + intros c. rewrite at_app, ljust_len, at_ljust, at_cons, at_nil. unfold inb; cbn [lo hi g_top]. cmp; cbn [andb]; try lia; try reflexivity. now rewrite at_over by lia.
      + intros ->. intros c. rewrite at_app, ljust_len, at_ljust, at_cons, at_nil. unfold inb; cbn [lo hi g_bot]. cmp; cbn [andb]; try lia; try reflexivity. now rewrite at_over by lia.
    - unfold draw_wire. cbn [fst snd]. rewrite (lookup_wmap (F (m_start m) (or_introl eq_refl))). cbn [bind]. rewrite (lookup_wmap (F (m_end m) (or_intror (or_introl eq_refl)))).
      set (s := col (m_start m)) in *. set (e := col (m_end m)) in *. assert (Ll : List.length (ljust l0 s SP) = s) by (rewrite ljust_len; lia). destruct (m_cup m) eqn:Em.
      + do 2 eexists. split; [reflexivity|]. split; [rewrite app_length, ljust_len, app_length, Ll; cbn; lia|]. split; [rewrite app_length, ljust_len, app_length, Ll; cbn; lia|]. split.
        * intros c. rewrite at_app, at_ljust_g, ljust_len, at_app, at_ljust, !at_cons, !at_nil, !app_length, Ll. unfold inb; cbn [lo hi g_top List.length]. fold s e. rewrite Em.
          cmp; cbn [andb]; try lia; try reflexivity. now rewrite at_over by lia.
        * intros _ c. unfold inb; cbn [lo hi g_bot]. fold s e. rewrite Em. cmp; cbn [andb]; try reflexivity. now rewrite at_over by lia.
      + rewrite Ll. do 2 eexists. split; [reflexivity|]. set (k := (e - s - 2) / 2).
        assert (Hk : k < e - s - 1) by (unfold k; assert ((e - s - 2) / 2 <= e - s - 2) by (apply Nat.div_le_upper_bound; lia); lia).
        assert (C : forall g, center [g] (e - s - 1) GLine = repeat GLine k ++ g :: repeat GLine (e - s - 2 - k)). { intros g. rewrite center1 by lia. replace (e - s - 1 - 1) with (e - s - 2) by lia. reflexivity. }
        assert (Em' : mid m = s + 1 + k) by reflexivity.
        rewrite !C. split; [repeat (rewrite app_length || (progress cbn [List.length]) || rewrite repeat_length); rewrite Ll; lia|]. split; [repeat (rewrite app_length || (progress cbn [List.length]) || rewrite repeat_length || rewrite ljust_len); lia|]. split.
        * intros c. repeat (rewrite at_app || rewrite at_cons || rewrite at_nil || rewrite at_repeat || rewrite at_ljust). rewrite !app_length, Ll. cbn [List.length]. rewrite !repeat_length. unfold inb; cbn [lo hi g_top]. fold s e. rewrite Em, Em'.
          cmp; cbn [andb]; try lia; try reflexivity. now rewrite at_over by lia.
        * intros _ c. repeat (rewrite at_app || rewrite at_cons || rewrite at_nil || rewrite at_repeat || rewrite at_ljust). rewrite !app_length, ljust_len. cbn [List.length]. rewrite !repeat_length. unfold inb; cbn [lo hi g_bot]. fold s e. rewrite Em, Em'.
          replace (Nat.max (List.length l1) s) with s by lia.
          cmp; cbn [andb]; try lia; try reflexivity. now rewrite at_over by lia.
  Qed.
  Definition before (b b' : block) : Prop := hi b < lo b'.
  Lemma draw_blocks two W bl : (forall w, In w (flat_map b_flat bl) -> In w W) -> Forall b_ok bl -> StronglySorted before bl -> forall l0 l1,
    (forall b, In b bl -> List.length l0 <= lo b) -> List.length l1 <= List.length l0 ->
    exists l0' l1', foldM (draw_wire two (wmap W)) (flat_map b_types bl) (l0, l1) = Ok (l0', l1') /\
      (forall c, at_col l0' c = match find g_top bl c with Some g => g | None => at_col l0 c end) /\ (two = true -> forall c, at_col l1' c = match find g_bot bl c with Some g => g | None => at_col l1 c end).
  Proof.
    induction bl as [|b bl IH]; intros F O S l0 l1 L0 L1; cbn [flat_map].
    - exists l0, l1. repeat split; auto.
    - inversion O as [|? ? Ob O']; subst. apply StronglySorted_inv in S. destruct S as [S Fb]. rewrite Forall_forall in Fb.
      destruct (@draw_block two W b l0 l1) as (m0 & m1 & E & Lm & L1' & T & B); [intros w Hw; apply F; cbn; apply in_app_iff; auto | exact Ob | apply L0; now left | exact L1|].
      destruct (IH) with (l0 := m0) (l1 := m1) as (n0 & n1 & E' & T' & B'); [intros w Hw; apply F; cbn; apply in_app_iff; auto | exact O' | exact S | intros b' Hb'; specialize (Fb b' Hb'); unfold before in Fb; lia | exact L1'|].
      exists n0, n1. rewrite foldM_app, E. cbn [bind]. split; [exact E'|].
      assert (N : forall g c, inb b c = true -> find g bl c = None).
      { intros g c Hc. apply andb_true_iff in Hc. destruct Hc as [_ Hc]. apply Nat.leb_le in Hc. clear -Fb Hc. induction bl as [|b' bl IH]; [reflexivity|]. cbn [find].
        assert (X : inb b' c = false). { specialize (Fb b' (or_introl eq_refl)). unfold before in Fb. unfold inb. destruct (Nat.leb_spec (lo b') c); [lia | reflexivity]. }
        rewrite X. apply IH. intros x Hx. apply Fb. now right. }
      split.
      + intros c. rewrite T', T. cbn [find]. destruct (inb b c) eqn:Ei; [now rewrite (N _ _ Ei) | reflexivity].
      + intros Et c. rewrite (B' Et), (B Et). cbn [find]. destruct (inb b c) eqn:Ei; [now rewrite (N _ _ Ei) | reflexivity].
  Qed.
  Lemma find_in g bl b c : StronglySorted before bl -> In b bl -> lo b <= c <= hi b -> find g bl c = Some (g b c).
  Proof.
    induction bl as [|b' bl IH]; intros S I H; [destruct I|]. apply StronglySorted_inv in S. destruct S as [S F]. rewrite Forall_forall in F. cbn [find]. destruct I as [-> | I].
    - unfold inb. destruct (Nat.leb_spec (lo b) c); [|lia]. destruct (Nat.leb_spec c (hi b)); [reflexivity | lia].
    - specialize (F b I). unfold before in F. assert (X : inb b' c = false). { unfold inb. destruct (Nat.leb_spec c (hi b')); [lia|]. apply andb_false_r. } rewrite X. now apply IH.
  Qed.
  Lemma find_out g bl c : (forall b, In b bl -> ~ (lo b <= c <= hi b)) -> find g bl c = None.
  Proof.
    induction bl as [|b bl IH]; intros H; [reflexivity|]. cbn [find]. assert (X : inb b c = false). { unfold inb. specialize (H b (or_introl eq_refl)). destruct (Nat.leb_spec (lo b) c); [|reflexivity]. destruct (Nat.leb_spec c (hi b)); [lia | reflexivity]. }
    rewrite X. apply IH. intros b' Hb'. apply H. now right.
  Qed.
  Lemma blocks_sorted bl : incr (flat_map b_flat bl) -> (forall a b, In a (flat_map b_flat bl) -> In b (flat_map b_flat bl) -> a < b -> col a + 2 <= col b) -> Forall b_ok bl /\ StronglySorted before bl.
  Proof.
    induction bl as [|b bl IH]; intros I G; [split; constructor|]. cbn [flat_map] in *. destruct (incr_app_inv I) as (Ib & Ibl & X). destruct IH as [F S]; [exact Ibl | intros p q Hp Hq; apply G; apply in_app_iff; auto|]. split.
    - constructor; [|exact F]. destruct b as [w|m]; cbn in *; [exact Logic.I|]. apply G; auto. apply StronglySorted_inv in Ib. destruct Ib as [_ Fa]. inversion Fa; auto.
    - constructor; [exact S|]. apply Forall_forall. intros b' Hb'. unfold before. assert (exists w, In w (b_flat b) /\ hi b = col w) as (w & Hw & ->) by (destruct b as [w|m]; cbn; eauto).
      assert (exists w', In w' (b_flat b') /\ lo b' = col w') as (w' & Hw' & ->) by (destruct b' as [w'|m]; cbn; eauto).
      assert (Hw2 : In w' (flat_map b_flat bl)) by (apply in_flat_map; eauto). specialize (X w w' Hw Hw2). assert (Y := G w w'). rewrite !in_app_iff in Y. specialize (Y (or_introl Hw) (or_intror Hw2) X). lia.
  Qed.
  Lemma incr_nodup W : incr W -> NoDup W.
  Proof. induction 1 as [|x W S IH F]; constructor; auto. rewrite Forall_forall in F. intros H. specialize (F x H). lia. Qed.
  Lemma draw_layer_ok W layer (live : nat -> Prop) : (forall w, live w <-> In w W) -> incr W -> sorted layer -> (forall a b, In a W -> In b W -> a < b -> col a + 2 <= col b) ->
    (forall m, In m layer -> m_start m < m_end m /\ In (m_start m) W /\ In (m_end m) W /\ forall w, In w W -> ~ (m_start m < w < m_end m)) ->
    exists rows, draw_layer layer (wmap W) = Ok rows /\ pictured col live layer rows.
  Proof.
    intros Lv I S G A. destruct (@decompose (List.length W) W layer) as (bl & E1 & E2); auto. unfold draw_layer, wire_types. unfold wmap at 2. rewrite map_map. cbn [fst]. subst W layer.
    assert (WT := @wire_types_blocks bl [] (incr_nodup I)). cbn [app] in WT. rewrite WT. destruct (blocks_sorted I G) as [Ok_ Sb].
    destruct (@draw_blocks (height (flat_map b_morph bl) =? 2)%nat (flat_map b_flat bl) bl (fun w H => H) Ok_ Sb [] []) as (l0 & l1 & E & T & B); [cbn; intros; lia | cbn; lia|].
    cbv zeta. rewrite E. cbn [bind]. eexists. split; [reflexivity|].
    assert (Mb : forall m, In m (flat_map b_morph bl) <-> In (BM m) bl).
    { intros m. rewrite in_flat_map. split; [intros (b & Hb & Hm); destruct b; cbn in Hm; [tauto|]; destruct Hm as [<- | []]; exact Hb | intros H; exists (BM m); split; [exact H | now left]]. }
    assert (Un : forall w, live w -> ~ touched (flat_map b_morph bl) w -> In (BId w) bl).
    { intros w Hl Ht. apply Lv in Hl. apply in_flat_map in Hl. destruct Hl as (b & Hb & Hw). destruct b as [w'|m]; cbn in Hw; [destruct Hw as [<- | []]; exact Hb|]. exfalso. apply Ht. exists m. split; [now apply Mb|]. destruct Hw as [<- | [<- | []]]; auto. }
    assert (Cv : forall c, ~ covered col live (flat_map b_morph bl) c -> forall b, In b bl -> ~ (lo b <= c <= hi b)).
    { intros c Hc b Hb H. apply Hc. destruct b as [w|m]; cbn in H; [left; exists w; split; [apply Lv; apply in_flat_map; exists (BId w); split; [exact Hb | now left] | lia] | right; exists m; split; [now apply Mb | exact H]]. }
    assert (Bok : forall m, In (BM m) bl -> col (m_start m) + 2 <= col (m_end m)) by (intros m Hm; rewrite Forall_forall in Ok_; exact (Ok_ _ Hm)).
    assert (TR : top_row col live (flat_map b_morph bl) l0).
    { split; [|split].
      - intros w Hl Ht. rewrite T, (find_in g_top Sb (Un w Hl Ht)) by (cbn; lia). reflexivity.
      - intros m Hm. apply Mb in Hm. assert (Bm := Bok m Hm). rewrite !T, !(find_in g_top Sb Hm) by (cbn; lia). cbn [g_top]. rewrite !Nat.eqb_refl. split; [reflexivity|]. split; [destruct (Nat.eqb_spec (col (m_end m)) (col (m_start m))); [lia | reflexivity]|].
        intros c Hc. rewrite T, (find_in g_top Sb Hm) by (cbn; lia). cbn [g_top]. destruct (Nat.eqb_spec c (col (m_start m))); [lia|]. destruct (Nat.eqb_spec c (col (m_end m))); [lia | reflexivity].
      - intros c Hc. rewrite T, find_out by (now apply Cv). apply at_nil. }
    unfold pictured. assert (Hh : (height (flat_map b_morph bl) =? 2)%nat = existsb (fun m => negb (m_cup m)) (flat_map b_morph bl)) by (unfold height; now destruct (existsb _ _)).
    rewrite Hh in *. cbn [fst snd]. destruct (existsb (fun m => negb (m_cup m)) (flat_map b_morph bl)); [|exists l0; auto]. exists l0, l1. split; [reflexivity|]. split; [exact TR|]. specialize (B eq_refl). split; [|split].
    - intros w Hl Ht. rewrite B, (find_in g_bot Sb (Un w Hl Ht)) by (cbn; lia). reflexivity.
    - intros m Hm. apply Mb in Hm. assert (Bm := Bok m Hm). destruct (m_cup m) eqn:Em.
      + intros c Hc. rewrite B, (find_in g_bot Sb Hm) by (cbn; lia). cbn [g_bot]. now rewrite Em.
      + rewrite !B, !(find_in g_bot Sb Hm) by (cbn; lia). cbn [g_bot]. rewrite Em, !Nat.eqb_refl. split; [reflexivity|]. split; [destruct (Nat.eqb_spec (col (m_end m)) (col (m_start m))); [lia | reflexivity]|].
        intros c Hc. rewrite B, (find_in g_bot Sb Hm) by (cbn; lia). cbn [g_bot]. rewrite Em. destruct (Nat.eqb_spec c (col (m_start m))); [lia|]. destruct (Nat.eqb_spec c (col (m_end m))); [lia | reflexivity].
    - intros c Hc. rewrite B, find_out by (now apply Cv). apply at_nil.
  Qed.
  (** removing the wires ended by the cups of a layer *)
  Lemma del_ok W w : In w W -> exists W', del_key w (wmap W) = Ok (wmap W') /\ (incr W -> incr W') /\ forall x, In x W' <-> In x W /\ x <> w.
  Proof.
    intros H. unfold del_key. rewrite (lookup_wmap H). exists (filter (fun x => negb (x =? w)%nat) W). split; [|split].
    - f_equal. unfold wmap. clear H. induction W as [|x W IH]; [reflexivity|]. cbn. destruct (negb (x =? w)%nat); cbn; congruence.
    - clear H. induction W as [|x W IH]; cbn; intros I; [constructor|]. apply StronglySorted_inv in I. destruct I as [I F]. destruct (negb (x =? w)%nat); auto. constructor; auto.
      rewrite Forall_forall in *. intros y Hy. apply filter_In in Hy. now apply F.
    - intros x. rewrite filter_In. destruct (Nat.eqb_spec x w); cbn; intuition congruence.
  Qed.
  Lemma dels_ok layer : forall W, incr W -> sorted layer -> (forall m, In m layer -> m_start m < m_end m /\ In (m_start m) W /\ In (m_end m) W) ->
    exists W', foldM (fun ws m => if m_cup m then do ws1 <- del_key (m_start m) ws; del_key (m_end m) ws1 else Ok ws) layer (wmap W) = Ok (wmap W') /\ incr W' /\ forall w, In w W' <-> In w W /\ forall m, In m layer -> ~ ends m w.
  Proof.
    induction layer as [|m layer IH]; intros W I S A.
    - exists W. split; [reflexivity|]. split; [exact I|]. intros w. split; [intros H; split; [exact H | intros m []] | tauto].
    - apply StronglySorted_inv in S. destruct S as [S F]. rewrite Forall_forall in F. destruct (A m (or_introl eq_refl)) as (Lm & Is & Ie). cbn [foldM]. destruct (m_cup m) eqn:Em.
      + destruct (del_ok Is) as (W1 & E1 & I1 & M1). rewrite E1. cbn [bind]. destruct (@del_ok W1 (m_end m)) as (W2 & E2 & I2 & M2); [apply M1; split; [exact Ie | lia]|]. rewrite E2. cbn [bind].
        destruct (IH W2) as (W3 & E3 & I3 & M3); [auto | exact S | |].
        { intros m' Hm'. destruct (A m' (or_intror Hm')) as (Lm' & Is' & Ie'). specialize (F m' Hm'). cbn in F. split; [exact Lm'|]. split; apply M2; (split; [apply M1; split; [assumption | lia] | lia]). }
        exists W3. split; [exact E3|]. split; [exact I3|]. intros w. rewrite M3, M2, M1. split.
        * intros (((Hw & N1) & N2) & N3). split; [exact Hw|]. intros m' [<- | Hm']; [intros [_ [? | ?]]; congruence | now apply N3].
        * intros (Hw & N). repeat split; auto; try (intros ->; apply (N m (or_introl eq_refl)); split; auto). intros m' Hm'. apply N. now right.
      + cbn [bind]. destruct (IH W) as (W3 & E3 & I3 & M3); [auto | exact S | intros m' Hm'; apply A; now right |]. exists W3. split; [exact E3|]. split; [exact I3|]. intros w. rewrite M3. split.
        * intros (Hw & N3). split; [exact Hw|]. intros m' [<- | Hm']; [intros [? _]; congruence | now apply N3].
        * intros (Hw & N). split; [exact Hw|]. intros m' Hm'. apply N. now right.
  Qed.
End Draw.
Lemma draw_ok cols c n ms js all : List.length cols = n -> (forall a b, a < b -> b < n -> col_of cols a + 2 <= col_of cols b) -> scheduled c ms js all -> track_facts (seq 0 n) ms ->
  forall ls pre W, all = pre ++ ls -> incr W -> (forall w, In w W <-> alive n all (List.length pre) w) ->
  exists rows, draw ls (wmap (col_of cols) W) = Ok rows /\ drawing n cols all (List.length pre) ls rows.
Proof.
  intros Ln G Sc Tf. induction ls as [|layer ls IH]; intros pre W E I Lv.
  - exists []. split; [reflexivity | constructor].
  - assert (Tag : forall m, In m layer -> In (m, List.length pre) (tagged 0 all)). { intros m Hm. apply tagged_in. split; [lia|]. exists layer. rewrite Nat.sub_0_r, E, nth_error_mid. auto. }
    assert (S : sorted layer). { assert (X := sc_sorted Sc). rewrite E, Forall_app in X. destruct X as [_ X]. now inversion X. }
    assert (A : forall m, In m layer -> m_start m < m_end m /\ In (m_start m) W /\ In (m_end m) W /\ forall w, In w W -> ~ (m_start m < w < m_end m)).
    { intros m Hm. apply Tag in Hm. split; [exact (sched_lt Sc Tf Hm)|]. split; [apply Lv; apply (used_alive Sc Tf Hm); auto|]. split; [apply Lv; apply (used_alive Sc Tf Hm); auto|].
      intros w Hw B. apply Lv in Hw. exact (between_dead Sc Tf Hm B Hw). }
    destruct (@draw_layer_ok (col_of cols) W layer (alive n all (List.length pre))) as (rows & E1 & P); auto; [intros w; symmetry; apply Lv | intros a b Ha Hb Lab; apply G; [exact Lab | apply Lv in Hb; apply Hb] |].
    cbn [draw]. rewrite E1. cbn [bind]. destruct (@dels_ok (col_of cols) layer W) as (W' & E2 & I' & M'); auto; [intros m Hm; destruct (A m Hm) as (? & ? & ? & _); auto|]. rewrite E2. cbn [bind].
    destruct (IH (pre ++ [layer]) W') as (rest & E3 & D).
    + rewrite <- app_assoc. exact E.
    + exact I'.
    + intros w. rewrite M', Lv, app_length. cbn [List.length]. split.
      * intros ((L & N) & N'). split; [exact L|]. intros m i Hm Li. destruct (Nat.eq_dec i (List.length pre)) as [-> | Ne]; [|apply (N m i Hm); lia]. apply N'. apply tagged_in in Hm. destruct Hm as (_ & l & El & Hm).
        rewrite Nat.sub_0_r, E, nth_error_mid in El. injection El as <-. exact Hm.
      * intros (L & N). split; [split; [exact L|]; intros m i Hm Li; apply (N m i Hm); lia|]. intros m Hm. apply (N m _ (Tag m Hm)). lia.
    + rewrite E3. cbn [bind]. eexists. split; [reflexivity|]. constructor; [exact P|]. rewrite app_length in D. cbn [List.length] in D. rewrite Nat.add_1_r in D. exact D.
Qed.
