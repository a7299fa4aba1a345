(** Lemmas about the text printer: the three header lines and the columns of the wires (C77). *)
From Coq Require Import Ascii Permutation Sorted Lia.
From Verif Require Import PyBase PyFacts TyModel DiagModel DiagSpec DiagMisc ReaderModel PrintModel PrintSpec PrintFacts PrintTracks PrintDraw.
Close Scope string_scope. Set Implicit Arguments. Unset Strict Implicit.

Lemma chs_len s : List.length (chs s) = String.length s.
Proof. unfold chs. rewrite map_length. induction s; cbn; congruence. Qed.
Lemma center_len l n f : List.length (center l n f) = Nat.max (List.length l) n.
Proof.
  unfold center. rewrite !app_length, !repeat_length. set (p := n - List.length l). assert (Nat.div2 p + (if Nat.odd p && Nat.odd n then 1 else 0) <= p); [|lia].
  destruct p as [|p]; [cbn; lia|]. rewrite Nat.div2_div. assert (S p / 2 < S p) by (apply Nat.div_lt; lia). destruct (_ && _); lia.
Qed.
Definition lead (l : line) (n : nat) : nat := let pad := n - List.length l in Nat.div2 pad + (if Nat.odd pad && Nat.odd n then 1 else 0).
Lemma lead_centred a l n : List.length l <= n -> centred a n (List.length l) (a + lead l n).
Proof.
  intros H. unfold lead. set (p := n - List.length l). assert (E := Nat.div2_odd p). assert (E2 : Nat.b2n (Nat.odd p) = if Nat.odd p then 1 else 0) by (now destruct (Nat.odd p)). unfold centred. unfold p in *. destruct (Nat.odd (n - List.length l)), (Nat.odd n); cbn in *; lia.
Qed.
Lemma center_text l n : List.length l <= n -> forall i g, nth_error l i = Some g -> at_col (center l n SP) (lead l n + i) = g.
Proof.
  intros H i g N. assert (L : i < List.length l) by (apply nth_error_Some; congruence). unfold center. fold (lead l n). rewrite !at_app, !repeat_length. cmp; try lia. replace (lead l n + i - lead l n) with i by lia.
  unfold at_col. now apply nth_error_nth.
Qed.
Lemma nth_columns ua last ts : forall k t, nth_error ts k = Some t -> nth_error (columns ua last ts) k = Some (last + List.length (flat_map (fun t => t ++ type_sep ua) (firstn k ts)) + (List.length t - 1) / 2).
Proof.
  revert last; induction ts as [|u ts IH]; intros last [|k] t; cbn [nth_error columns firstn flat_map List.length]; try discriminate.
  - intros [= ->]. f_equal. lia.
  - intros N. rewrite (IH _ _ _ N). f_equal. rewrite !app_length. lia.
Qed.
Lemma columns_len ua ts : forall last, List.length (columns ua last ts) = List.length ts.
Proof. induction ts as [|t ts IH]; intros last; cbn; auto. Qed.
Lemma sep_pos ua : 1 <= List.length (type_sep ua).
Proof. destruct ua; cbn; lia. Qed.
Notation gapped := (StronglySorted (fun x y => x + 2 <= y)).
Lemma join_len ua t ts : List.length (join ua (t :: ts)) = List.length t + List.length (flat_map (fun u => type_sep ua ++ u) ts).
Proof. cbn [join]. rewrite app_length, <- flat_map_concat_map. reflexivity. Qed.
Lemma columns_range ua ts : Forall (fun t : line => 1 <= List.length t) ts -> forall last, gapped (columns ua last ts) /\ Forall (fun x => last <= x < last + List.length (join ua ts)) (columns ua last ts).
Proof.
  induction 1 as [|t ts Ht F IH]; intros last; cbn [columns]; [split; constructor|]. destruct (IH (last + List.length t + List.length (type_sep ua))) as [G R]. assert (Sp := sep_pos ua).
  assert (D : (List.length t - 1) / 2 <= List.length t - 1) by (apply Nat.div_le_upper_bound; lia). split.
  - constructor; [exact G|]. rewrite Forall_forall in *. intros x Hx. specialize (R x Hx). lia.
  - constructor; [rewrite join_len; lia|]. rewrite Forall_forall in *. intros x Hx. specialize (R x Hx). rewrite join_len. destruct ts as [|u ts]; [destruct Hx|]. rewrite join_len in R. cbn [flat_map]. rewrite !app_length. lia.
Qed.
Lemma type_text_join ua t : type_text ua t = join ua (map show t).
Proof.
  induction t as [|a t IH]; [reflexivity|]. destruct t as [|b t]; [cbn; now rewrite app_nil_r|]. change (type_text ua (a :: b :: t)) with (show a ++ sep ua ++ type_text ua (b :: t)). rewrite IH. cbn. now rewrite <- !app_assoc.
Qed.
Lemma join_split ua ts : forall k t, nth_error ts k = Some t -> exists post, join ua ts = flat_map (fun t => t ++ type_sep ua) (firstn k ts) ++ t ++ post.
Proof.
  induction ts as [|u ts IH]; intros [|k] t; cbn [nth_error firstn flat_map]; try discriminate.
  - intros [= ->]. eexists. reflexivity.
  - intros N. destruct (IH _ _ N) as (post & E). exists post. destruct ts as [|v ts]; [destruct k; discriminate|]. rewrite <- !app_assoc, <- E. cbn. now rewrite <- !app_assoc.
Qed.
(** ** Stripping *)
Definition blank_ok (l : line) : Prop := Forall (fun g => match g with Ch c => is_space c = true -> c = " "%char | _ => True end) l.
Lemma at_rstrip l c : blank_ok l -> at_col (rstrip l) c = at_col l c.
Proof.
  intros B. unfold rstrip. assert (X : exists n, rev l = repeat SP n ++ lstrip_g (rev l)).
  { assert (B' : blank_ok (rev l)) by (now apply Forall_rev). revert B'. generalize (rev l). clear. induction l as [|g l IH]; intros B; [exists 0; reflexivity|]. inversion B as [|? ? Hg Bl]; subst. destruct g as [ch| | | | | | |]; try (exists 0; reflexivity).
    cbn [lstrip_g]. destruct (is_space ch) eqn:E; [|exists 0; reflexivity]. rewrite (Hg eq_refl) in *. destruct (IH Bl) as (n & En). exists (S n). cbn. now rewrite <- En. }
  destruct X as (n & E). apply (f_equal (@rev glyph)) in E. rewrite rev_involutive, rev_app_distr in E. set (s := rev (lstrip_g (rev l))) in *. rewrite E. rewrite at_app. assert (R : rev (repeat SP n) = repeat SP n).
  { clear. induction n as [|n IH]; [reflexivity|]. cbn [repeat rev]. rewrite IH. clear IH. induction n as [|n IH]; [reflexivity|]. cbn [repeat app]. now rewrite IH. }
  rewrite R, at_repeat. cmp; try reflexivity; now apply at_over.
Qed.
Lemma blank_app l l' : blank_ok (l ++ l') <-> blank_ok l /\ blank_ok l'.
Proof. apply Forall_app. Qed.
Lemma blank_chs s : (forall c, In c (list_ascii_of_string s) -> is_space c = true -> c = " "%char) -> blank_ok (chs s).
Proof. intros H. unfold chs, blank_ok. apply Forall_map. apply Forall_forall. exact H. Qed.
Lemma blank_repeat g n : blank_ok [g] -> blank_ok (repeat g n).
Proof. intros H. inversion H; subst. induction n; constructor; auto. Qed.
Lemma blank_SP : blank_ok [SP].
Proof. repeat constructor. Qed.
Lemma blank_concat ls : Forall blank_ok ls -> blank_ok (List.concat ls).
Proof. induction 1; cbn; [constructor|]. now apply blank_app. Qed.
Lemma Forall_repeat A (P : A -> Prop) x n : P x -> Forall P (repeat x n).
Proof. intros H. induction n; constructor; auto. Qed.
Lemma blank_show a : name_ok (fst a) -> blank_ok (show a).
Proof.
  intros [_ H]. unfold show. rewrite !blank_app. split; [now apply blank_chs|]. split; apply blank_concat, Forall_repeat, blank_chs; cbn; intros c [<- | [<- | []]]; discriminate.
Qed.
Lemma blank_sep ua : blank_ok (type_sep ua).
Proof. destruct ua; repeat constructor; auto; discriminate. Qed.
Lemma blank_join ua ts : Forall blank_ok ts -> blank_ok (join ua ts).
Proof.
  destruct 1 as [|t ts Ht F]; cbn [join]; [constructor|]. apply blank_app. split; [exact Ht|]. apply blank_concat. apply Forall_map. eapply Forall_impl; [|exact F]. intros u Hu. apply blank_app. split; [apply blank_sep | exact Hu].
Qed.
Lemma blank_center l n : blank_ok l -> blank_ok (center l n SP).
Proof. intros H. unfold center. rewrite !blank_app. repeat split; auto; apply blank_repeat, blank_SP. Qed.
Lemma show_pos a : name_ok (fst a) -> 1 <= List.length (show a).
Proof. intros [H _]. unfold show. rewrite app_length, chs_len. destruct (fst a); [congruence | cbn; lia]. Qed.

Section Heads.
  Variables (sp : nat) (ua : bool).
  Notation width := (width ua).
  Notation starts := (starts sp ua).
  Definition hfold (h : header) (ws : list (string * ty)) : header := fold_left (fun h w => add_word sp ua h (fst w) (snd w)) ws h.
  Lemma headers_fold ls : forall h, headers sp ua h (map l_box ls) = hfold h (word_part ls).
  Proof. induction ls as [|[[l b] r] ls IH]; intros h; [reflexivity|]. destruct b; try reflexivity. cbn [map l_box headers word_part hfold fold_left fst snd]. apply IH. Qed.
  Definition wcols (a : nat) (w : string * ty) : list nat := columns ua (a + Nat.div2 (width w - List.length (type_text ua (snd w)))) (map show (snd w)).
  Definition lens (h : header) (L : nat) : Prop := List.length (h_words h) = L /\ List.length (h_under h) = L /\ List.length (h_types h) = L.
  Definition start0 (L : nat) : nat := if (L =? 0)%nat then 0 else L + sp.
  Definition keep (L : nat) (h h' : header) : Prop := forall c, c < L -> at_col (h_words h') c = at_col (h_words h) c /\ at_col (h_under h') c = at_col (h_under h) c /\ at_col (h_types h') c = at_col (h_types h) c.
  Definition placed (w : string * ty) (a : nat) (h : header) : Prop := forall c, a <= c < a + width w ->
    at_col (h_words h) c = at_col (center (chs (fst w)) (width w) SP) (c - a) /\ at_col (h_under h) c = GLine /\ at_col (h_types h) c = at_col (center (type_text ua (snd w)) (width w) SP) (c - a).
  Definition blank (h : header) (c : nat) : Prop := at_col (h_words h) c = SP /\ at_col (h_under h) c = SP /\ at_col (h_types h) c = SP.
  Lemma add_word_ok h L w : lens h L -> let h' := add_word sp ua h (fst w) (snd w) in
    lens h' (start0 L + width w) /\ keep L h h' /\ placed w (start0 L) h' /\ (forall c, L <= c < start0 L -> blank h' c) /\ h_pos h' = h_pos h ++ wcols (start0 L) w.
  Proof.
    intros (L1 & L2 & L3). unfold add_word. set (s := match h_words h with [] => [] | _ => repeat SP sp end). cbv zeta. cbn [h_words h_under h_types h_pos].
    rewrite <- type_text_join, chs_len. fold (width w). change (Nat.max (String.length (fst w)) (List.length (type_text ua (snd w)))) with (width w).
    assert (Ls : List.length s = start0 L - L /\ L <= start0 L). { unfold s, start0. destruct (h_words h) eqn:E; cbn in L1; subst L; [cbn; lia|]. rewrite repeat_length. cbn. lia. }
    destruct Ls as [Ls LL]. assert (Cs : forall c, at_col s c = SP). { intros c. unfold s. destruct (h_words h); [apply at_nil|]. rewrite at_repeat. now destruct (_ <? _)%nat. }
    assert (W1 : List.length (center (chs (fst w)) (width w) SP) = width w) by (rewrite center_len, chs_len; unfold PrintSpec.width; lia).
    assert (W2 : List.length (center (type_text ua (snd w)) (width w) SP) = width w) by (rewrite center_len; unfold PrintSpec.width; lia).
    assert (W3 : List.length (repeat GLine (width w)) = width w) by apply repeat_length.
    split; [|split; [|split; [|split]]].
    - repeat split; cbn [h_words h_under h_types]; rewrite !app_length; lia.
    - intros c Hc. cbn [h_words h_under h_types]. rewrite !at_app, !app_length. cmp; try lia. auto.
    - intros c Hc. cbn [h_words h_under h_types]. rewrite !at_app, !app_length. cmp; try lia. replace (c - (List.length (h_words h) + List.length s)) with (c - start0 L) by lia. replace (c - (List.length (h_types h) + List.length s)) with (c - start0 L) by lia.
      split; [reflexivity|]. split; [|reflexivity]. rewrite at_repeat. cmp; [reflexivity | lia].
    - intros c Hc. unfold blank. cbn [h_words h_under h_types]. rewrite !at_app, !app_length. cmp; try lia. auto.
    - rewrite app_length, L3, Ls. replace (L + (start0 L - L)) with (start0 L) by lia. reflexivity.
  Qed.
  Lemma starts_cons a w ws : starts a (w :: ws) = a :: starts (a + width w + sp) ws.
  Proof. reflexivity. Qed.
  Lemma hfold_ok ws : Forall (fun w : string * ty => 1 <= width w) ws -> forall h L, lens h L -> let h' := hfold h ws in exists L',
    lens h' L' /\ L <= L' /\ keep L h h' /\ (forall i w a, nth_error ws i = Some w -> nth_error (starts (start0 L) ws) i = Some a -> L <= a /\ a + width w <= L' /\ placed w a h') /\
    (forall c, L <= c -> (forall i w a, nth_error ws i = Some w -> nth_error (starts (start0 L) ws) i = Some a -> ~ (a <= c < a + width w)) -> blank h' c) /\
    h_pos h' = h_pos h ++ List.concat (map (fun p => wcols (fst p) (snd p)) (List.combine (starts (start0 L) ws) ws)).
  Proof.
    induction 1 as [|w ws Hw F IH]; intros h L Hl; cbv zeta.
    - exists L. cbn. split; [exact Hl|]. split; [lia|]. split; [intros c _; auto|]. split; [intros [|i]; discriminate|]. split; [|now rewrite app_nil_r].
      intros c Hc _. destruct Hl as (L1 & L2 & L3). unfold blank. rewrite !at_over by lia. auto.
    - destruct (add_word_ok w Hl) as (Hl1 & K1 & P1 & B1 & Po). set (h1 := add_word sp ua h (fst w) (snd w)) in *. cbn [hfold fold_left]. fold h1. fold (hfold h1 ws).
      destruct (IH h1 (start0 L + width w) Hl1) as (L' & Hl' & LL & K & P & B & Po'). assert (E0 : start0 (start0 L + width w) = start0 L + width w + sp) by (unfold start0 at 1; cmp; [lia | reflexivity]).
      assert (LS : L <= start0 L) by (unfold start0; cmp; lia). rewrite E0 in *. rewrite starts_cons.
      exists L'. split; [exact Hl'|]. split; [lia|]. split; [|split; [|split]].
      + intros c Hc. destruct (K c) as (A1 & A2 & A3); [lia|]. destruct (K1 c Hc) as (C1 & C2 & C3). rewrite A1, A2, A3. auto.
      + intros [|i] w' a'; cbn [nth_error].
        * intros [= <-] [= <-]. split; [exact LS|]. split; [lia|]. intros c Hc. destruct (K c) as (A1 & A2 & A3); [lia|]. rewrite A1, A2, A3. now apply P1.
        * intros N1 N2. destruct (P i w' a' N1 N2) as (X1 & X2 & X3). split; [lia|]. auto.
      + intros c Hc N. destruct (Nat.lt_ge_cases c (start0 L)) as [Lc | Lc].
        * destruct (K c) as (A1 & A2 & A3); [lia|]. unfold blank. rewrite A1, A2, A3. now apply B1.
        * assert (Nw := N 0 w (start0 L) eq_refl eq_refl). apply B; [lia|]. intros i w' a' N1 N2. exact (N (S i) w' a' N1 N2).
      + unfold hfold in Po'. unfold hfold. rewrite Po', Po, <- app_assoc. reflexivity.
  Qed.
End Heads.
Section Top.
  Variables (sp : nat) (ua : bool).
  Notation width := (width ua).
  Notation starts := (starts sp ua).
  Definition h0 : header := H [] [] [] [].
  Definition wok (w : string * ty) : Prop := name_ok (fst w) /\ Forall (fun a : atom => name_ok (fst a)) (snd w).
  Lemma wok_width w : wok w -> 1 <= width w.
  Proof. intros [[H _] _]. unfold PrintSpec.width. assert (1 <= String.length (fst w)) by (destruct (fst w); [congruence | cbn; lia]). lia. Qed.
  Lemma hfold_blank ws : Forall wok ws -> forall h, blank_ok (h_words h) -> blank_ok (h_types h) -> blank_ok (h_words (hfold sp ua h ws)) /\ blank_ok (h_types (hfold sp ua h ws)).
  Proof.
    induction 1 as [|w ws [Hn Ht] F IH]; intros h B1 B2; [now split|]. cbn [hfold fold_left]. apply IH; unfold add_word; cbv zeta; cbn [h_words h_types]; rewrite !blank_app.
    - split; [split; [exact B1|]|apply blank_center, blank_chs; apply Hn]. destruct (h_words h); [constructor | apply blank_repeat, blank_SP].
    - split; [split; [exact B2|]|].
      + destruct (h_words h); [constructor | apply blank_repeat, blank_SP].
      + apply blank_center, blank_join. apply Forall_map. eapply Forall_impl; [|exact Ht]. intros a Ha. now apply blank_show.
  Qed.
  Lemma wcols_len a w : List.length (wcols ua a w) = List.length (snd w).
  Proof. unfold wcols. now rewrite columns_len, map_length. Qed.
  Lemma starts_len a ws : List.length (starts a ws) = List.length ws.
  Proof. revert a; induction ws as [|w ws IH]; intros a; cbn; auto. Qed.
  Definition allcols (a : nat) (ws : list (string * ty)) : list nat := List.concat (map (fun p => wcols ua (fst p) (snd p)) (List.combine (starts a ws) ws)).
  Lemma allcols_len a ws : List.length (allcols a ws) = List.length (flat_map snd ws).
  Proof. unfold allcols. revert a; induction ws as [|w ws IH]; intros a; [reflexivity|]. cbn [PrintSpec.starts List.combine map List.concat flat_map fst snd]. rewrite !app_length, wcols_len, IH. reflexivity. Qed.
  Lemma allcols_nth ws : forall a0 i w a k, nth_error ws i = Some w -> nth_error (starts a0 ws) i = Some a -> k < List.length (snd w) ->
    nth_error (allcols a0 ws) (List.length (flat_map snd (firstn i ws)) + k) = nth_error (wcols ua a w) k.
  Proof.
    unfold allcols. induction ws as [|w0 ws IH]; intros a0 [|i] w a k; cbn [nth_error firstn flat_map PrintSpec.starts List.combine map List.concat fst snd List.length]; try discriminate.
    - intros [= ->] [= ->] Hk. cbn [Nat.add]. rewrite nth_error_app1; [reflexivity | now rewrite wcols_len].
    - intros N1 N2 Hk. assert (EL : List.length (snd w0 ++ flat_map snd (firstn i ws)) = List.length (wcols ua a0 w0) + List.length (flat_map snd (firstn i ws))) by (rewrite wcols_len; apply app_length).
      etransitivity; [apply f_equal; exact (f_equal (fun z => z + k) EL)|]. rewrite nth_error_app2 by lia. replace (List.length (wcols ua a0 w0) + List.length (flat_map snd (firstn i ws)) + k - List.length (wcols ua a0 w0)) with (List.length (flat_map snd (firstn i ws)) + k) by lia. eapply IH; eauto.
  Qed.
  Lemma gapped_app u v : gapped u -> gapped v -> (forall a b, In a u -> In b v -> a + 2 <= b) -> gapped (u ++ v).
  Proof.
    induction u as [|x u IH]; cbn [app]; intros A B C; [exact B|]. apply StronglySorted_inv in A. destruct A as [A F]. constructor; [apply IH; auto; intros; apply C; [now right | assumption]|].
    rewrite Forall_app. split; [exact F|]. apply Forall_forall. intros b Hb. apply C; [now left | exact Hb].
  Qed.
  Lemma wcols_range a w : wok w -> gapped (wcols ua a w) /\ Forall (fun x => a <= x < a + width w) (wcols ua a w).
  Proof.
    intros [Hn Ht]. unfold wcols. assert (F : Forall (fun t : line => 1 <= List.length t) (map show (snd w))) by (apply Forall_map; eapply Forall_impl; [|exact Ht]; intros x Hx; now apply show_pos).
    destruct (columns_range ua F (a + Nat.div2 (width w - List.length (type_text ua (snd w))))) as [G R]. split; [exact G|]. eapply Forall_impl; [|exact R]. intros x Hx. cbn in Hx. rewrite <- type_text_join in Hx.
    assert (L : List.length (type_text ua (snd w)) <= width w) by (unfold PrintSpec.width; lia). set (p := width w - List.length (type_text ua (snd w))) in *. assert (E := Nat.div2_odd p). destruct (Nat.odd p); cbn in E; lia.
  Qed.
  Lemma allcols_gapped ws : 1 <= sp -> Forall wok ws -> forall a, gapped (allcols a ws) /\ Forall (fun x => a <= x) (allcols a ws).
  Proof.
    intros Hs. unfold allcols. induction 1 as [|w ws Hw F IH]; intros a; cbn [PrintSpec.starts List.combine map List.concat fst snd]; [split; constructor|].
    destruct (IH (a + width w + sp)) as [G R]. destruct (wcols_range a Hw) as [G1 R1]. split.
    - apply gapped_app; auto. intros x y Hx Hy. rewrite Forall_forall in *. specialize (R _ Hy). specialize (R1 _ Hx). cbn in *. lia.
    - rewrite Forall_app. split; eapply Forall_impl; [|exact R1| |exact R]; cbn; intros; lia.
  Qed.
  Lemma gapped_nth l : gapped l -> forall a b, a < b -> b < List.length l -> nth a l 0 + 2 <= nth b l 0.
  Proof.
    induction 1 as [|x l S IH F]; intros a b L Hb; cbn in Hb; [lia|]. destruct b as [|b]; [lia|]. destruct a as [|a]; cbn [nth].
    - rewrite Forall_forall in F. apply F. apply nth_In. lia.
    - apply IH; lia.
  Qed.
  Lemma hfold_pos ws : Forall wok ws -> h_pos (hfold sp ua h0 ws) = allcols 0 ws.
  Proof.
    intros F. assert (F1 : Forall (fun w : string * ty => 1 <= width w) ws) by (eapply Forall_impl; [|exact F]; exact wok_width).
    destruct (@hfold_ok sp ua ws F1 h0 0) as (L' & _ & _ & _ & _ & _ & E); [repeat split|]. exact E.
  Qed.
  Lemma headed_ok ws : Forall wok ws -> let h := hfold sp ua h0 ws in headed sp ua ws (h_pos h) (rstrip (h_words h)) (h_under h) (rstrip (h_types h)).
  Proof.
    intros F h. assert (F1 : Forall (fun w : string * ty => 1 <= width w) ws) by (eapply Forall_impl; [|exact F]; exact wok_width).
    destruct (@hfold_ok sp ua ws F1 h0 0) as (L' & _ & _ & _ & P & B & _); [repeat split|]. change (start0 sp 0) with 0 in *. fold h in P, B. assert (E : h_pos h = allcols 0 ws) by (now apply hfold_pos).
    destruct (@hfold_blank ws F h0) as [B1 B2]; [constructor|constructor|]. fold h in B1, B2. constructor.
    - intros i w a N1 N2. destruct (P i w a N1 N2) as (_ & _ & Q). assert (Lw : List.length (chs (fst w)) <= width w) by (rewrite chs_len; unfold PrintSpec.width; lia).
      exists (a + lead (chs (fst w)) (width w)). assert (C := lead_centred a Lw). rewrite chs_len in C. split; [exact C|]. intros j g Ng. rewrite at_rstrip by exact B1. rewrite chs_len in Lw. unfold centred in C.
      assert (Lj : j < String.length (fst w)) by (rewrite <- chs_len; apply nth_error_Some; congruence). destruct (Q (a + lead (chs (fst w)) (width w) + j)) as (E1 & _); [lia|]. rewrite E1.
      replace (a + lead (chs (fst w)) (width w) + j - a) with (lead (chs (fst w)) (width w) + j) by lia. apply center_text; [rewrite chs_len; lia | exact Ng].
    - intros c. split.
      + intros (i & w & a & N1 & N2 & Hc). destruct (P i w a N1 N2) as (_ & _ & Q). apply (Q c Hc).
      + intros N. destruct (B c) as (X1 & X2 & X3); [lia | intros i w a N1 N2 Hc; apply N; exists i, w, a; auto|]. rewrite !at_rstrip by assumption. auto.
    - intros i w a N1 N2. destruct (P i w a N1 N2) as (_ & _ & Q). assert (Lw : List.length (type_text ua (snd w)) <= width w) by (unfold PrintSpec.width; lia).
      exists (a + lead (type_text ua (snd w)) (width w)). assert (C := lead_centred a Lw). split; [exact C|].
      assert (TA : text_at (rstrip (h_types h)) (a + lead (type_text ua (snd w)) (width w)) (type_text ua (snd w))).
      { intros j g Ng. rewrite at_rstrip by exact B2. unfold centred in C. assert (Lj : j < List.length (type_text ua (snd w))) by (apply nth_error_Some; congruence).
        destruct (Q (a + lead (type_text ua (snd w)) (width w) + j)) as (_ & _ & E1); [lia|]. rewrite E1.
        replace (a + lead (type_text ua (snd w)) (width w) + j - a) with (lead (type_text ua (snd w)) (width w) + j) by lia. now apply center_text. }
      split; [exact TA|]. intros k t Nt q. assert (Nk := map_nth_error show k (snd w) Nt). rewrite firstn_map in * || idtac.
      assert (Fm : flat_map (fun a : atom => show a ++ sep ua) (firstn k (snd w)) = flat_map (fun t => t ++ type_sep ua) (firstn k (map show (snd w)))).
      { rewrite firstn_map. clear. induction (firstn k (snd w)) as [|x l IH]; [reflexivity|]. cbn. now rewrite IH. }
      split.
      + intros j g Ng. unfold q. rewrite Fm. destruct (join_split ua Nk) as (post & Ej). rewrite <- type_text_join in Ej. set (pre := flat_map (fun t => t ++ type_sep ua) (firstn k (map show (snd w)))) in *.
        replace (a + lead (type_text ua (snd w)) (width w) + List.length pre + j) with (a + lead (type_text ua (snd w)) (width w) + (List.length pre + j)) by lia. apply TA. rewrite Ej.
        rewrite nth_error_app2 by lia. replace (List.length pre + j - List.length pre) with j by lia. now apply nth_error_app_l.
      + unfold col_of. rewrite E. assert (Lk : k < List.length (snd w)) by (apply nth_error_Some; congruence). assert (Na := allcols_nth N1 N2 Lk). unfold wcols in Na. rewrite (nth_columns ua _ Nk) in Na.
        apply (nth_error_nth _ _ 0) in Na. rewrite Na. unfold q. rewrite Fm. unfold lead, shifted. destruct (_ && _); lia.
  Qed.

  Theorem print_ok c d : wf d -> is_pregroup d = true -> names_ok d -> 1 <= sp -> exists ms js ls cols wl ul tl rows,
    diagram2str sp ua c d = Ok (wl :: ul :: tl :: rows) /\ List.length cols = n_wires d /\ (forall a b, a < b -> b < n_wires d -> col_of cols a + 2 <= col_of cols b) /\ headed sp ua (word_part (layers d)) cols wl ul tl /\
    tracks (after_words d) (seq 0 (n_wires d)) ms /\ scheduled c ms js ls /\
    (forall m j, In (m, j) (tagged 0 ls) -> m_start m < m_end m /\ alive (n_wires d) ls j (m_start m) /\ alive (n_wires d) ls j (m_end m) /\ forall w, m_start m < w < m_end m -> ~ alive (n_wires d) ls j w) /\
    drawing (n_wires d) cols ls 0 ls rows.
  Proof.
    intros W P N Hs. destruct (@process_diagram c d W P) as (ms & T & Ep). assert (Tf := tracks_facts T (incr_seq 0 (n_wires d))).
    assert (Mo : Forall mok ms). { apply Forall_forall. intros m Hm. apply In_nth_error in Hm. destruct Hm as (k & Hk). destruct (tf_in Tf Hk) as (L & _). unfold mok. lia. }
    destruct (places_scheduled c Mo) as (js & Sc & _ & _). unfold diagram2str. rewrite P. cbn [negb]. cbv zeta. change (H [] [] [] []) with h0. change (headers sp ua h0 (boxes d)) with (headers sp ua h0 (map l_box (layers d))). rewrite headers_fold. set (h := hfold sp ua h0 (word_part (layers d))).
    assert (Eh : h_pos h = allcols 0 (word_part (layers d))) by (now apply hfold_pos). assert (Lh : List.length (h_pos h) = n_wires d) by (rewrite Eh; apply allcols_len).
    rewrite Lh. rewrite Ep. cbn [bind]. assert (G : forall a b, a < b -> b < n_wires d -> col_of (h_pos h) a + 2 <= col_of (h_pos h) b).
    { intros a b L1 L2. apply gapped_nth; [|exact L1 | now rewrite Lh]. rewrite Eh. now apply allcols_gapped. }
    assert (Ec : List.combine (seq 0 (n_wires d)) (h_pos h) = wmap (col_of (h_pos h)) (seq 0 (n_wires d))).
    { rewrite <- Lh. unfold wmap, col_of. generalize (h_pos h). clear. intros l. assert (X : forall k pre, List.length pre = k -> List.combine (seq k (List.length l)) l = map (fun w => (w, nth w (pre ++ l) 0)) (seq k (List.length l))).
      { induction l as [|x l IH]; intros k pre E; [reflexivity|]. cbn [List.length seq List.combine map]. f_equal; [f_equal; now rewrite <- E, nth_middle|]. rewrite (IH (S k) (pre ++ [x])) by (rewrite app_length; cbn; lia). rewrite <- app_assoc. reflexivity. }
      exact (X 0 [] eq_refl). }
    destruct (@draw_ok (h_pos h) c (n_wires d) ms js (places c ms) Lh G Sc Tf (places c ms) [] (seq 0 (n_wires d)) eq_refl (incr_seq 0 _)) as (rows & Ed & Dr).
    { intros w. rewrite in_seq. split; [intros [_ H]; split; [exact H | intros m i _ Hi; cbn in Hi; lia] | intros [H _]; lia]. }
    rewrite Ec, Ed. cbn [bind]. exists ms, js, (places c ms), (h_pos h). do 4 eexists. split; [reflexivity|]. split; [exact Lh|]. split; [exact G|]. split; [now apply headed_ok|]. split; [exact T|]. split; [exact Sc|]. split; [|exact Dr].
    intros m j Hm. split; [exact (sched_lt Sc Tf Hm)|]. split; [apply (used_alive Sc Tf Hm); auto|]. split; [apply (used_alive Sc Tf Hm); auto|]. intros w Hw. exact (between_dead Sc Tf Hm Hw).
  Qed.
  Lemma print_error c d : is_pregroup d = false -> diagram2str sp ua c d = Err ValueError.
  Proof. intros E. unfold diagram2str. now rewrite E. Qed.
End Top.
Lemma odd_not_shifted ua (w : string * ty) : snd w <> [] -> Forall (fun a => Nat.odd (List.length (show a)) = true) (snd w) -> shifted ua w = false.
Proof.
  intros N F. assert (O : Nat.odd (List.length (type_text ua (snd w))) = true).
  { destruct w as [n t]. cbn [snd] in *. clear n. induction F as [|a t Ha F IH]; [congruence|]. destruct t as [|b t]; [exact Ha|].
    change (type_text ua (a :: b :: t)) with (show a ++ sep ua ++ type_text ua (b :: t)). rewrite !app_length, !Nat.odd_add, Ha, IH by discriminate. destruct ua; reflexivity. }
  unfold shifted. set (n := width ua w). set (l := List.length (type_text ua (snd w))) in *. assert (L : l <= n) by (unfold n, width; fold l; lia).
  replace n with ((n - l) + l) at 2 by lia. rewrite Nat.odd_add, O. now destruct (Nat.odd (n - l)).
Qed.
