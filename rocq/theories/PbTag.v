From Coq Require Import Sorted.
From Verif Require Import PyBase PyFacts ReaderModel RewFacts PbModel PbSpec PbFacts.
Close Scope string_scope. Set Implicit Arguments. Unset Strict Implicit.

(** the entries of a row that reach the threshold *)
Definition reach (t : option Z) (row : list scored) : list scored := filter (fun x => negb (below (snd x) t)) row.
Definition reach_span (t : option Z) (row : list scored) : list scored := filter (fun x => negb (fst x =? 0)) (reach t row).
Lemma below_all t x xs : below (snd x) t = true -> Forall (sc_ge x) xs -> reach t xs = [].
Proof.
  intros B. induction 1 as [|y xs H F IH]; [reflexivity|]. unfold reach in *. cbn [filter]. destruct t as [t|]; [|discriminate]. cbn [below] in *. unfold sc_ge in H. assert (E : (snd y <? t)%Z = true) by (apply Z.ltb_lt; apply Z.ltb_lt in B; lia). rewrite E. exact IH.
Qed.
Lemma keep_all null t xs : StronglySorted sc_ge xs -> (forall out, null out = true) -> forall out, keep null t xs out = out ++ reach t xs.
Proof.
  intros Srt N. induction Srt as [|x xs Ss IH F]; intros out; [now rewrite app_nil_r|]. cbn [keep]. unfold reach. cbn [filter]. fold (reach t xs). destruct (below (snd x) t) eqn:B; cbn [negb].
  - rewrite (below_all B F). now rewrite app_nil_r.
  - rewrite N, orb_true_r, IH, <- app_assoc. reflexivity.
Qed.
Lemma keep_nonnull null t xs : StronglySorted sc_ge xs -> forall out, (forall more, incl more xs -> null (out ++ more) = false) -> keep null t xs out = out ++ reach_span t xs.
Proof.
  intros Srt. induction Srt as [|x xs Ss IH F]; intros out N; [now rewrite app_nil_r|]. cbn [keep]. unfold reach_span, reach. cbn [filter]. fold (reach t xs). fold (reach_span t xs). destruct (below (snd x) t) eqn:B; cbn [negb].
  - fold (reach t xs). rewrite (below_all B F). now rewrite app_nil_r.
  - cbn [filter]. assert (N0 := N [] ltac:(intros z [])). rewrite app_nil_r in N0. rewrite N0, orb_false_r. destruct (fst x =? 0)%nat; cbn [negb].
    + apply IH. intros more I. apply N. intros z Hz. right. auto.
    + rewrite IH, <- app_assoc; [reflexivity|]. intros more I. rewrite <- app_assoc. apply N. intros z [<-|Hz]; [now left | right; auto].
Qed.
Lemma fold_snoc A B (f : list B -> A -> B) (g : A -> B) l : (forall x acc, In x l -> f acc x = g x) -> forall acc, fold_left (fun acc x => acc ++ [f acc x]) l acc = acc ++ map g l.
Proof.
  intros H. induction l as [|x l IH]; intros acc; [now rewrite app_nil_r|]. cbn [fold_left map]. rewrite (H x acc) by now left. rewrite IH by (intros; apply H; now right). now rewrite <- app_assoc.
Qed.
Lemma eq_list_iff A (f : A -> A -> bool) : (forall a b, f a b = true <-> a = b) -> forall a b, eq_list f a b = true <-> a = b.
Proof.
  intros H. induction a as [|x a IH]; intros [|y b]; cbn; try (split; congruence). rewrite andb_true_iff, H, IH. split; [intros [-> ->]; reflexivity | intros [= -> ->]; auto].
Qed.
Lemma batch_eqb_iff a b : batch_eqb a b = true <-> a = b.
Proof. apply eq_list_iff, eq_list_iff, eq_list_iff. intros [i s] [j t]. unfold sc_eqb. cbn. rewrite andb_true_iff, Nat.eqb_eq, Z.eqb_eq. split; [intros [-> ->]; reflexivity | intros [= -> ->]; auto]. Qed.
Lemma keep_tags rel lp b : Forall (fun x => Forall (StronglySorted sc_ge) (snd x)) b -> keep_batch (fun _ => true) rel lp b = map (fun x => map (fun r => reach (threshold rel lp r) r) (firstn (fst x) (snd x))) b.
Proof.
  intros F. unfold keep_batch. rewrite (@fold_snoc _ _ _ (fun x => map (fun r => reach (threshold rel lp r) r) (firstn (fst x) (snd x)))); [reflexivity|].
  intros x acc Hx. unfold keep_sent. rewrite (@fold_snoc _ _ _ (fun r => reach (threshold rel lp r) r)); [reflexivity|]. intros r acc' Hr. rewrite keep_all; [reflexivity| |auto].
  rewrite Forall_forall in F. specialize (F x Hx). rewrite Forall_forall in F. apply F. rewrite <- (firstn_skipn (fst x) (snd x)). apply in_or_app. now left.
Qed.
Lemma keep_spans tags rel lp b : Forall (fun x => Forall (StronglySorted sc_ge) (snd x)) b -> (forall s w, In s tags -> In w s -> w <> []) -> (forall s w x, In s tags -> In w s -> In x w -> forall y r, In y b -> In r (snd y) -> ~ In x r) ->
  keep_batch (fun b => batch_eqb b tags) rel lp b = map (fun x => map (fun r => reach_span (threshold rel lp r) r) (firstn (fst x) (snd x))) b.
Proof.
  intros F Ne Dj. unfold keep_batch. rewrite (@fold_snoc _ _ _ (fun x => map (fun r => reach_span (threshold rel lp r) r) (firstn (fst x) (snd x)))); [reflexivity|].
  intros x acc Hx. unfold keep_sent. rewrite (@fold_snoc _ _ _ (fun r => reach_span (threshold rel lp r) r)); [reflexivity|]. intros r acc' Hr. assert (Hr' : In r (snd x)) by (rewrite <- (firstn_skipn (fst x) (snd x)); apply in_or_app; now left). rewrite keep_nonnull; [reflexivity | |].
  - rewrite Forall_forall in F. specialize (F x Hx). rewrite Forall_forall in F. now apply F.
  - intros more I. cbn [app]. destruct (batch_eqb (acc ++ [acc' ++ [more]]) tags) eqn:E; [|reflexivity]. exfalso. apply batch_eqb_iff in E.
    assert (I1 : In (acc' ++ [more]) tags) by (rewrite <- E; apply in_or_app; right; now left). assert (I2 : In more (acc' ++ [more])) by (apply in_or_app; right; now left).
    destruct more as [|m more]; [exact (Ne _ _ I1 I2 eq_refl)|]. exact (Dj _ _ m I1 I2 (or_introl eq_refl) x r Hx Hr' (I m (or_introl eq_refl))).
Qed.
(** numbering *)
Lemma number_ok outs : forall i k, exists m r, (k <= m)%nat /\ number_spans i outs (chart k) = Ok (r, chart m) /\ forall x y o, In ((x, y), o) r <-> (x <= y)%nat /\ o <> [] /\ (i <= tri y + (y - x))%nat /\ nth_error outs (tri y + (y - x) - i) = Some o.
Proof.
  induction outs as [|o outs IH]; intros i k.
  - exists k, []. split; [lia|]. split; [reflexivity|]. intros x y o. split; [intros [] | intros (_ & _ & _ & H); now destruct (_ - i) in H].
  - destruct o as [|e o].
    + destruct (IH (S i) k) as (m & r & L & E & H). exists m, r. split; [exact L|]. split; [exact E|]. intros x y o. rewrite H. split; intros (H1 & H2 & H3 & H4).
      * split; [auto|]. split; [auto|]. split; [lia|]. replace (tri y + (y - x) - i) with (S (tri y + (y - x) - S i)) by lia. exact H4.
      * destruct (Nat.eq_dec i (tri y + (y - x))) as [Ei|Ni]; [rewrite <- Ei, Nat.sub_diag in H4; cbn in H4; congruence|]. split; [auto|]. split; [auto|]. split; [lia|]. replace (tri y + (y - x) - i) with (S (tri y + (y - x) - S i)) in H4 by lia. exact H4.
    + destruct (tri_find i) as (x0 & y0 & L0 & E0). cbn [number_spans]. destruct (idx_ok' k L0) as (m0 & Lm & Ei). rewrite <- E0 in Ei. rewrite Ei. cbn [bind]. destruct (IH (S i) m0) as (m & r & L & E & H). rewrite E. cbn [bind fst snd].
      exists m, (((x0, y0), e :: o) :: r). split; [lia|]. split; [reflexivity|]. intros x y o'. cbn [In]. rewrite H. split.
      * intros [[= <- <- <-] | (H1 & H2 & H3 & H4)].
        -- split; [auto|]. split; [discriminate|]. split; [lia|]. rewrite <- E0, Nat.sub_diag. reflexivity.
        -- split; [auto|]. split; [auto|]. split; [lia|]. replace (tri y + (y - x) - i) with (S (tri y + (y - x) - S i)) by lia. exact H4.
      * intros (H1 & H2 & H3 & H4). destruct (Nat.eq_dec i (tri y + (y - x))) as [Ei'|Ni].
        -- left. rewrite <- Ei', Nat.sub_diag in H4. cbn in H4. injection H4 as <-. f_equal. assert (Q : nth_error (chart (S (max y y0))) i = Some (x, y) /\ nth_error (chart (S (max y y0))) i = Some (x0, y0)). { split; [rewrite Ei'; apply chart_nth; lia | rewrite E0; apply chart_nth; lia]. } destruct Q as [Q1 Q2]. congruence.
        -- right. split; [auto|]. split; [auto|]. split; [lia|]. replace (tri y + (y - x) - i) with (S (tri y + (y - x) - S i)) in H4 by lia. exact H4.
Qed.
Definition numbered (outs : list (list scored)) (r : list (span * list scored)) : Prop := forall x y o, In ((x, y), o) r <-> (x <= y)%nat /\ o <> [] /\ nth_error outs (tri y + (y - x)) = Some o.
Lemma number_all_ok bs : forall k, exists m rs, (k <= m)%nat /\ number_all bs (chart k) = Ok (rs, chart m) /\ Forall2 numbered bs rs.
Proof.
  induction bs as [|b bs IH]; intros k; [exists k, []; split; [lia|]; split; [reflexivity | constructor]|]. cbn [number_all]. destruct (number_ok b 0 k) as (m & r & L & E & H). rewrite E. cbn [bind fst snd]. destruct (IH m) as (m' & rs & L' & E' & H'). rewrite E'. cbn [bind fst snd].
  exists m', (r :: rs). split; [lia|]. split; [reflexivity|]. constructor; [|exact H']. intros x y o. rewrite H, Nat.sub_0_r. intuition lia.
Qed.

Lemma reach_selected rel lp row : reach (threshold rel lp row) row = selected rel lp row.
Proof.
  unfold reach, selected. apply filter_ext. intros x. unfold threshold, below. destruct lp as [l|]; [|reflexivity]. rewrite Z.ltb_antisym, negb_involutive. reflexivity.
Qed.
Lemma reach_span_selected rel lp row : reach_span (threshold rel lp row) row = selected_span rel lp row.
Proof. unfold reach_span, selected_span. now rewrite reach_selected. Qed.
Lemma forall2_nth A B (R : A -> B -> Prop) l l' : Forall2 R l l' -> forall i a b, nth_error l i = Some a -> nth_error l' i = Some b -> R a b.
Proof. induction 1 as [|x y l l' H F IH]; intros [|i] a b; cbn; try discriminate; [intros [= <-] [= <-]; exact H | apply IH]. Qed.
Lemma forall2_len A B (R : A -> B -> Prop) l l' : Forall2 R l l' -> List.length l = List.length l'.
Proof. induction 1; cbn; congruence. Qed.
Lemma nth_combine A B (l : list A) (l' : list B) i x y : nth_error (combine l l') i = Some (x, y) <-> nth_error l i = Some x /\ nth_error l' i = Some y.
Proof. revert l' i. induction l as [|a l IH]; intros [|b l'] [|i]; cbn; try (split; [discriminate | intros [? ?]; discriminate]); [split; [intros [= -> ->]; auto | intros [[= ->] [= ->]]; auto] | apply IH]. Qed.
Lemma map_fst_combine A B (l : list A) (l' : list B) : List.length l = List.length l' -> map fst (combine l l') = l.
Proof. revert l'. induction l as [|a l IH]; intros [|b l'] H; try discriminate; [reflexivity|]. cbn. f_equal. apply IH. now injection H. Qed.
Lemma nth_firstn A (l : list A) n i : (i < n)%nat -> nth_error (firstn n l) i = nth_error l i.
Proof. revert n i. induction l as [|a l IH]; intros [|n] [|i] H; cbn; auto; try lia. apply IH. lia. Qed.
Lemma firstn_in A (l : list A) n x : In x (firstn n l) -> In x l.
Proof. intros H. rewrite <- (firstn_skipn n l). apply in_or_app. now left. Qed.
Lemma rows_sorted lens sc : rows_ok lens sc -> Forall (fun x => Forall (StronglySorted sc_ge) (snd x)) (combine lens sc).
Proof. induction 1 as [|n rows lens sc [_ H] F IH]; cbn; constructor; [|exact IH]. cbn. eapply Forall_impl; [|exact H]. now intros r [_ ?]. Qed.
Lemma tagger_ok (st : settings) (h : list call) (inputs : list sentence) (tsc ssc : list (list (list scored))) :
  rows_ok (map (@List.length string) inputs) tsc -> rows_ok (map (fun s => List.length s * (List.length s + 1) / 2)%nat inputs) ssc -> rel_tag st = true -> (forall l, logp_tag st = Some l -> (l <= 0)%Z) -> no_shared tsc ssc ->
  exists out memo, tagger_parse st inputs tsc ssc (after h) = Ok (out, memo) /\ map (fun o => fst (fst o)) out = inputs /\
    forall j words tags spans trows srows, nth_error out j = Some (words, tags, spans) -> nth_error tsc j = Some trows -> nth_error ssc j = Some srows ->
      List.length tags = List.length words /\
      (forall w ts row, nth_error tags w = Some ts -> nth_error trows w = Some row -> ts <> [] /\ ts = selected true (logp_tag st) row) /\
      (forall x y o, In ((x, y), o) spans <-> (x <= y)%nat /\ (y < List.length words)%nat /\ o <> [] /\ exists row, nth_error srows (y * (y + 1) / 2 + (y - x)) = Some row /\ o = selected_span (rel_span st) (logp_span st) row).
Proof.
  intros H1 H2 Hr Hl Ns. unfold tagger_parse. rewrite keep_tags by now apply rows_sorted. set (tags := map _ (combine (map (@List.length string) inputs) tsc)).
  assert (Ne1 : forall lp row, (forall l, lp = Some l -> (l <= 0)%Z) -> row <> [] -> selected true lp row <> []).
  { intros lp row Hlp Hrow. destruct row as [|b row]; [congruence|]. unfold selected. cbn [filter]. assert (E : match lp with Some l => (snd b + l <=? snd b)%Z | None => true end = true) by (destruct lp as [l|]; [specialize (Hlp l eq_refl); apply Z.leb_le; lia | reflexivity]). rewrite E. discriminate. }
  assert (Tin : forall s w, In s tags -> In w s -> exists rows row, In rows tsc /\ In row rows /\ row <> [] /\ w = selected true (logp_tag st) row).
  { intros s w Hs Hw. unfold tags in Hs. apply in_map_iff in Hs. destruct Hs as ([n rows] & <- & Hc). cbn [fst snd] in Hw. apply in_map_iff in Hw. destruct Hw as (row & <- & Hrow). apply firstn_in in Hrow. exists rows, row. assert (Hrows := in_combine_r _ _ _ _ Hc). split; [exact Hrows|]. split; [exact Hrow|]. split; [|now rewrite Hr, reach_selected].
    clear - H1 Hrows Hrow. induction H1 as [|n' rows' lens sc [_ F] H1 IH]; [destruct Hrows|]. destruct Hrows as [-> | Hrows]; [|now apply IH]. rewrite Forall_forall in F. now destruct (F row Hrow). }
  rewrite keep_spans.
  2: { now apply rows_sorted. }
  2: { intros s w Hs Hw. destruct (Tin s w Hs Hw) as (rows & row & _ & _ & Hn & ->). apply Ne1; auto. }
  2: { intros s w x Hs Hw Hx y r Hy Hry. destruct (Tin s w Hs Hw) as (rows & row & I1 & I2 & _ & ->). unfold selected in Hx. apply filter_In in Hx. destruct Hx as [Hx _]. destruct y as [n rows']. apply in_combine_r in Hy. exact (Ns rows row x rows' r I1 I2 Hx Hy Hry). }
  set (spans := map _ (combine _ ssc)). destruct (after_chart h) as [k ->]. destruct (number_all_ok spans k) as (m & rs & _ & E & F). rewrite E. cbn [bind fst snd]. exists (combine (combine inputs tags) rs), (chart m). split; [reflexivity|].
  assert (L1 : List.length inputs = List.length tsc) by (apply forall2_len in H1; now rewrite map_length in H1). assert (L2 : List.length inputs = List.length ssc) by (apply forall2_len in H2; now rewrite map_length in H2).
  assert (Lt : List.length tags = List.length inputs) by (unfold tags; rewrite map_length, combine_length, map_length; unfold sentence in *; lia). assert (Ls : List.length rs = List.length inputs) by (rewrite <- (forall2_len F); unfold spans; rewrite map_length, combine_length, map_length; unfold sentence in *; lia).
  split. { rewrite <- (map_map fst fst), map_fst_combine by (rewrite combine_length; unfold sentence in *; lia). now apply map_fst_combine. }
  intros j words tg sp trows srows Ej Et Es. apply nth_combine in Ej. destruct Ej as [Ej Ers]. apply nth_combine in Ej. destruct Ej as [Ein Etg].
  assert (Elen : nth_error (map (@List.length string) inputs) j = Some (List.length words)) by (erewrite map_nth_error; [reflexivity | exact Ein]). assert (R1 := forall2_nth H1 Elen Et). cbn beta in R1. destruct R1 as [R1 R1'].
  assert (Elen2 : nth_error (map (fun s => List.length s * (List.length s + 1) / 2)%nat inputs) j = Some (tri (List.length words))) by (erewrite map_nth_error; [reflexivity | exact Ein]). assert (R2 := forall2_nth H2 Elen2 Es). cbn beta in R2. destruct R2 as [R2 R2'].
  assert (Etg' : tg = map (fun r => reach (threshold (rel_tag st) (logp_tag st) r) r) (firstn (List.length words) trows)).
  { unfold tags in Etg. rewrite nth_error_map in Etg. destruct (nth_error (combine _ tsc) j) as [[n rows]|] eqn:Q; [|discriminate]. apply nth_combine in Q. destruct Q as [Q1 Q2]. cbn in Etg. congruence. }
  assert (Esp : nth_error spans j = Some (map (fun r => reach_span (threshold (rel_span st) (logp_span st) r) r) (firstn (tri (List.length words)) srows))).
  { unfold spans. rewrite nth_error_map. replace (nth_error (combine _ ssc) j) with (Some (tri (List.length words), srows)); [reflexivity|]. symmetry. apply nth_combine. split; [exact Elen2 | exact Es]. }
  assert (Nb := forall2_nth F Esp Ers). cbn beta in Nb. split; [|split].
  - rewrite Etg', map_length, firstn_length. lia.
  - intros w ts row Hw Hrow. rewrite Etg', nth_error_map in Hw. destruct (nth_error (firstn _ trows) w) as [row'|] eqn:Q; [|discriminate]. cbn in Hw. injection Hw as <-. assert (w < List.length words)%nat. { assert (w < List.length (firstn (List.length words) trows))%nat by (apply nth_error_Some; congruence). rewrite firstn_length in *. lia. }
    rewrite nth_firstn in Q by auto. assert (row' = row) as -> by congruence. rewrite Hr, reach_selected. split; [|reflexivity]. apply Ne1; [auto|]. rewrite Forall_forall in R1'. apply nth_error_In in Q. now destruct (R1' row Q).
  - intros x y o. etransitivity; [exact (Nb x y o)|]. split.
    + intros (Lx & No & En). rewrite nth_error_map in En. destruct (nth_error (firstn _ srows) _) as [row|] eqn:Q; [|discriminate]. cbn in En. injection En as <-. assert (Lq : (tri y + (y - x) < tri (List.length words))%nat). { assert (tri y + (y - x) < List.length (firstn (tri (List.length words)) srows))%nat by (apply nth_error_Some; congruence). rewrite firstn_length in *. lia. }
      rewrite nth_firstn in Q by exact Lq. split; [exact Lx|]. split. { destruct (Nat.le_gt_cases (List.length words) y) as [G|G]; [|exact G]. apply tri_mono in G. lia. } split; [exact No|]. exists row. split; [exact Q | apply reach_span_selected].
    + intros (Lx & Ly & No & row & Q & ->). split; [exact Lx|]. split; [exact No|]. rewrite nth_error_map, nth_firstn. { change (y * (y + 1) / 2)%nat with (tri y) in Q. rewrite Q. cbn. now rewrite reach_span_selected. } assert (Z := @tri_mono (S y) (List.length words) Ly). rewrite tri_S in Z. lia.
Qed.
