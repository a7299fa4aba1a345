(** Reading a pregroup diagram: the wires of the words and the pairs that its cups join (C79, lemmas only). *)
From Coq Require Import Sorted.
From Verif Require Import PyBase PyFacts TyModel TyFacts DiagModel DiagSpec DiagFacts DiagMisc MiscModel MiscFacts TreeModel TreeSpec TdModel TdSpec TdPairs TdWires TdPlanar DtModel.
Close Scope string_scope. Set Implicit Arguments. Unset Strict Implicit.

Lemma wkey_eqb_spec a b : reflect (a = b) (wkey_eqb a b).
Proof.
  destruct a as [s n], b as [s' n']. unfold wkey_eqb. cbn [fst snd]. destruct (String.eqb_spec s s') as [->|]; cbn; [|constructor; congruence]. destruct (Nat.eqb_spec n n') as [->|]; constructor; congruence.
Qed.

Lemma wkey_eqb_iff a b : wkey_eqb a b = true <-> a = b.
Proof. destruct (wkey_eqb_spec a b); split; congruence. Qed.

(** ** The words *)
Fixpoint keys_from (i : nat) (words : list (string * ty)) : list (option wkey) := match words with [] => [] | (w, c) :: ws => repeat (Some (w, i)) (List.length c) ++ keys_from (S i) ws end.
Fixpoint wds_from (i : nat) (words : list (string * ty)) : list (string * nat * ty) := match words with [] => [] | (w, c) :: ws => (w, i, c) :: wds_from (S i) ws end.
Lemma combine_seq_app A (l m : list A) : forall i, combine (seq i (List.length (l ++ m))) (l ++ m) = combine (seq i (List.length l)) l ++ combine (seq (i + List.length l) (List.length m)) m.
Proof. induction l as [|x l IH]; intros i; cbn; [now rewrite Nat.add_0_r|]. f_equal. rewrite IH. now rewrite Nat.add_succ_r. Qed.
Lemma read_words words : forall i pre st, tind st = [] -> absb st = [] -> foldM read_layer (combine (seq i (List.length (word_layers pre words))) (word_layers pre words)) st =
  Ok (DState (wbt st ++ keys_from i words) (types st ++ flat_map snd words) [] [] (wds st ++ wds_from i words)).
Proof.
  induction words as [|[w c] ws IH]; intros i pre [wb ty0 ti ab wd] Et Ea; cbn in Et, Ea; subst; [cbn; now rewrite !app_nil_r|]. cbn [word_layers List.length seq combine foldM read_layer bind wbt types tind absb wds]. rewrite IH by reflexivity. cbn [wbt types wds flat_map snd keys_from wds_from]. now rewrite <- !app_assoc.
Qed.

(** ** The cups and swaps *)
Definition planar_box (b : box) : Prop := match b with Cup _ _ _ | Swap _ _ => True | _ => False end.
Definition acup (p : nat * nat) : abox := (ACup, fst p, snd p).
Lemma dom_two b : planar_box b -> List.length (b_dom b) = 2.
Proof. destruct b; cbn; tauto. Qed.
Lemma joins_rem A ls : forall (ws : list A) ps rem x, joins ls ws = (ps, rem) -> In x rem -> In x ws.
Proof.
  induction ls as [|[[l b] r] ls IH]; intros ws ps rem x E H; cbn [joins] in E; [injection E as <- <-; exact H|].
  assert (D : ws = firstn (List.length l) ws ++ skipn (List.length l) ws) by (symmetry; apply firstn_skipn). destruct (skipn (List.length l) ws) as [|a [|a' w2]]; [eapply IH; eauto | eapply IH; eauto|].
  destruct b; try (eapply IH; eauto; fail).
  - destruct (joins ls (firstn (List.length l) ws ++ w2)) as [ps' r'] eqn:J. injection E as <- <-. specialize (IH _ _ _ _ J H). rewrite D. apply in_app_or in IH. apply in_or_app. cbn. tauto.
  - specialize (IH _ _ _ _ E H). rewrite D. apply in_app_or in IH. apply in_or_app. cbn in *. tauto.
Qed.
Lemma read_cups ls : forall i ti A B ps rem st, chain A ls B -> Forall (fun x => planar_box (l_box x)) ls -> List.length A = List.length ti -> joins ls ti = (ps, rem) -> rem <> [] -> ls <> [] ->
  (match tind st with [] => seq 0 (List.length (types st)) | t => t end) = ti -> Forall (fun b => is_kind ACap b = false) (absb st) ->
  exists st', foldM read_layer (combine (seq i (List.length ls)) ls) st = Ok st' /\ wbt st' = wbt st /\ types st' = types st /\ tind st' = rem /\ absb st' <> [] /\ Forall (fun b => is_kind ACap b = false) (absb st') /\
    filter (is_kind ACup) (absb st') = filter (is_kind ACup) (absb st) ++ map acup ps.
Proof.
  induction ls as [|[[l b] r] ls IH]; intros i ti A B ps rem st Ch F La J Nr Nl Et Fk; [congruence|]. clear Nl. cbn [chain] in Ch. destruct Ch as [Ed Ch]. inversion F as [|? ? Pb F']; subst. cbn [l_box snd fst] in Pb. assert (D2 := dom_two Pb).
  set (ti := match tind st with [] => seq 0 (List.length (types st)) | t => t end) in *. unfold l_dom in La. cbn [fst snd] in La. rewrite !app_length, D2 in La.
  assert (Dec : exists x y w2, ti = firstn (List.length l) ti ++ x :: y :: w2 /\ List.length w2 = List.length r /\ List.length (firstn (List.length l) ti) = List.length l).
  { assert (Lf : List.length (firstn (List.length l) ti) = List.length l) by (rewrite firstn_length; lia). assert (Ls : List.length (skipn (List.length l) ti) = 2 + List.length r) by (rewrite skipn_length; lia). destruct (skipn (List.length l) ti) as [|x [|y w2]] eqn:Es; cbn in Ls; try lia. exists x, y, w2. rewrite <- Es, firstn_skipn. repeat split; [lia | exact Lf]. }
  destruct Dec as (x & y & w2 & Dt & Lw2 & Lf). set (lc := firstn (List.length l) ti) in *. assert (Sk : skipn (List.length l) ti = x :: y :: w2) by (rewrite Dt, <- Lf, skipn_app, skipn_all, Nat.sub_diag; reflexivity).
  assert (Ends : match List.length r with O => skipn (List.length l) ti | _ => firstn (List.length ti - List.length r - List.length l) (skipn (List.length l) ti) end = [x; y]).
  { rewrite Sk. destruct (List.length r) as [|n] eqn:Er; [destruct w2; [reflexivity | cbn in Lw2; lia]|]. replace (List.length ti - S n - List.length l) with 2 by lia. reflexivity. }
  assert (Rc : match List.length r with O => [] | _ => skipn (List.length ti - List.length r) ti end = w2).
  { destruct (List.length r) as [|n] eqn:Er; [destruct w2; [reflexivity | cbn in Lw2; lia]|]. rewrite Dt at 2. replace (List.length ti - S n) with (List.length (lc ++ [x; y])) by (rewrite app_length; cbn; lia). change (x :: y :: w2) with ([x; y] ++ w2). rewrite app_assoc, skipn_app, skipn_all, Nat.sub_diag. reflexivity. }
  cbn [joins] in J. rewrite Sk in J. fold lc in J. cbn [List.length seq combine foldM].
  destruct b; try (destruct Pb; fail); cbn [read_layer]; fold ti; rewrite Ends, Rc; fold lc; cbn [bind].
  - (* Cup *) destruct (joins ls (lc ++ w2)) as [ps' r'] eqn:J'. injection J as <- <-.
    destruct ls as [|y0 ls'].
    + cbn [joins] in J'. injection J' as <- <-. cbn [List.length seq combine foldM]. eexists. split; [reflexivity|]. cbn [wbt types tind absb]. split; [reflexivity|]. split; [reflexivity|]. split; [reflexivity|]. split; [now destruct (absb st)|]. split; [apply Forall_app; split; [exact Fk | repeat constructor]|]. rewrite filter_app. reflexivity.
    + assert (Nz : lc ++ w2 <> []). { intros Z. destruct r' as [|x0 r']; [congruence|]. assert (I := @joins_rem _ _ _ _ _ x0 J' ltac:(now left)). rewrite Z in I. destruct I. }
      destruct (IH (S i) (lc ++ w2) _ _ ps' r' (DState (wbt st) (types st) (lc ++ w2) (absb st ++ [(ACup, x, y)]) (wds st)) Ch F') as (st' & E & H1 & H2 & H3 & H4 & H5 & H6).
      * unfold l_cod, b_cod. cbn [fst snd b_end]. rewrite !app_length, Lf. cbn [List.length]. lia.
      * exact J'. * exact Nr. * discriminate. * cbn [tind]. destruct (lc ++ w2); [congruence | reflexivity]. * cbn [absb]. apply Forall_app; split; [exact Fk | repeat constructor].
      * exists st'. split; [exact E|]. cbn [wbt types absb] in *. split; [exact H1|]. split; [exact H2|]. split; [exact H3|]. split; [exact H4|]. split; [exact H5|]. rewrite H6, filter_app, <- app_assoc. reflexivity.
  - (* Swap *) destruct ls as [|y0 ls'].
    + cbn [joins] in J. injection J as <- <-. cbn [List.length seq combine foldM]. eexists. split; [reflexivity|]. cbn [wbt types tind absb]. split; [reflexivity|]. split; [reflexivity|]. split; [reflexivity|]. split; [now destruct (absb st)|]. split; [apply Forall_app; split; [exact Fk | repeat constructor]|]. rewrite filter_app. reflexivity.
    + destruct (IH (S i) (lc ++ y :: x :: w2) _ _ ps rem (DState (wbt st) (types st) (lc ++ y :: x :: w2) (absb st ++ [(ASwap, x, y)]) (wds st)) Ch F') as (st' & E & H1 & H2 & H3 & H4 & H5 & H6).
      * unfold l_cod, b_cod. cbn [fst snd b_end]. rewrite !app_length, Lf. cbn [List.length]. lia.
      * exact J. * exact Nr. * discriminate. * cbn [tind]. destruct lc; reflexivity. * cbn [absb]. apply Forall_app; split; [exact Fk | repeat constructor].
      * exists st'. split; [exact E|]. cbn [wbt types absb] in *. split; [exact H1|]. split; [exact H2|]. split; [exact H3|]. split; [exact H4|]. split; [exact H5|]. rewrite H6, filter_app. cbn [filter is_kind akind_eqb fst]. now rewrite app_nil_r.
Qed.

(** ** The positions of each word *)
Lemma typ_lists_get k wb : d_get wkey_eqb k (typ_lists wb) = match filter (fun p => okey_eqb (nth p wb None) (Some k)) (seq 0 (List.length wb)) with [] => None | l => Some l end.
Proof.
  unfold typ_lists. induction wb as [|o wb IH] using rev_ind; [reflexivity|]. rewrite combine_seq_app, fold_left_app, app_length, seq_app, filter_app. cbn [List.length seq combine fold_left Nat.add].
  assert (E : filter (fun p => okey_eqb (nth p (wb ++ [o]) None) (Some k)) (seq 0 (List.length wb)) = filter (fun p => okey_eqb (nth p wb None) (Some k)) (seq 0 (List.length wb))).
  { apply filter_ext_in. intros p Hp. apply in_seq in Hp. rewrite app_nth1 by lia. reflexivity. }
  rewrite E. cbn [filter]. rewrite app_nth2 by lia. rewrite Nat.sub_diag. cbn [nth]. set (F := filter (fun p => okey_eqb (nth p wb None) (Some k)) (seq 0 (List.length wb))) in *. set (D := fold_left _ (combine (seq 0 (List.length wb)) wb) []) in *.
  destruct o as [j|]; cbn [okey_eqb]; [|rewrite app_nil_r; exact IH]. rewrite (d_get_set wkey_eqb_iff). destruct (wkey_eqb_spec j k) as [->|N]; [|rewrite app_nil_r; exact IH]. rewrite IH. destruct F; reflexivity.
Qed.
