(** Lemmas about the text printer (C66, C77). *)
From Coq Require Import Ascii Permutation Sorted Lia.
From Verif Require Import PyBase PyFacts TyModel DiagModel DiagSpec DiagMisc PrintModel PrintSpec.
Close Scope string_scope. Set Implicit Arguments. Unset Strict Implicit.

(** ** Layers *)
Notation sorted := (StronglySorted (fun m m' : morph => m_end m < m_start m')).
Definition mok (m : morph) : Prop := m_start m <= m_end m.
Lemma fit_none s e l : s <= e -> Forall mok l -> sorted l -> forall i, fit s e i l = None -> exists m, In m l /\ overlap m (M true s e).
Proof.
  intros Hse F. induction F as [|m l Hm F IH]; intros S i; cbn [fit]; [discriminate|].
  destruct (e <? m_start m)%nat eqn:E1; [discriminate|]. apply Nat.ltb_ge in E1. destruct (s <=? m_end m)%nat eqn:E2.
  - apply Nat.leb_le in E2. intros _. exists m. split; [now left|]. split; cbn; lia.
  - intros H. apply StronglySorted_inv in S. destruct (IH (proj1 S) (Datatypes.S i) H) as (m' & I & O). exists m'. split; [now right | exact O].
Qed.
Lemma fit_some s e l : s <= e -> Forall mok l -> sorted l -> forall i k, fit s e i l = Some k -> exists u v, l = u ++ v /\ k = i + List.length u /\ Forall (fun m => m_end m < s) u /\ Forall (fun m => e < m_start m) v.
Proof.
  intros Hse F. induction F as [|m l Hm F IH]; intros S i k; cbn [fit].
  - intros [= <-]. exists [], []. repeat split; auto. 
  - destruct (e <? m_start m)%nat eqn:E1.
    + apply Nat.ltb_lt in E1. intros [= <-]. exists [], (m :: l). split; [reflexivity|]. split; [cbn; lia|]. split; [constructor|]. constructor; [exact E1|].
      apply StronglySorted_inv in S. destruct S as [_ S]. rewrite Forall_forall in *. intros x Hx. specialize (S x Hx). cbn in S. unfold mok in *. lia.
    + destruct (s <=? m_end m)%nat eqn:E2; [discriminate|]. apply Nat.leb_gt in E2. intros H. apply StronglySorted_inv in S. destruct (IH (proj1 S) _ _ H) as (u & v & -> & -> & U & V).
      exists (m :: u), v. split; [reflexivity|]. split; [cbn; lia|]. split; [now constructor | exact V].
Qed.
Lemma sorted_insert u v m : sorted (u ++ v) -> Forall (fun x => m_end x < m_start m) u -> Forall (fun x => m_end m < m_start x) v -> sorted (u ++ m :: v).
Proof.
  induction u as [|a u IH]; intros S U V; cbn [app] in *.
  - constructor; assumption.
  - apply StronglySorted_inv in S. destruct S as [S Sa]. inversion U; subst. constructor; [now apply IH|]. rewrite Forall_app in *. destruct Sa as [S1 S2]. split; [exact S1|]. now constructor.
Qed.
(** what [back] finds: all the layers from [li] on have room, the one before has not *)
Lemma back_spec s e rl : s <= e -> Forall (Forall mok) rl -> Forall sorted rl -> forall index li index' li', List.length rl <= li -> back s e rl index li = (index', li') ->
  exists k, li' = li - k /\ k <= List.length rl /\ (forall l, In l (firstn k rl) -> forall m, In m l -> ~ overlap m (M true s e)) /\
    (match nth_error rl k with Some l => exists m, In m l /\ overlap m (M true s e) | None => True end) /\
    (k = 0 -> index' = index) /\ (forall k', k = S k' -> exists l u v, nth_error rl k' = Some l /\ l = u ++ v /\ index' = List.length u /\ Forall (fun m => m_end m < s) u /\ Forall (fun m => e < m_start m) v).
Proof.
  intros Hse. induction rl as [|l rl IH]; intros F S index li index' li' L; cbn [back].
  - intros [= <- <-]. exists 0. cbn. split; [lia|]. split; [lia|]. split; [intros l []|]. split; [exact I|]. split; [auto|]. intros k'; discriminate.
  - inversion F as [|? ? Fl Fr]; subst. inversion S as [|? ? Sl Sr]; subst. destruct (fit s e 0 l) as [i|] eqn:E.
    + intros H. cbn in L. destruct (IH Fr Sr i (li - 1) index' li') as (k & E1 & K & A & B & C & D); [lia | exact H|]. exists (Datatypes.S k). split; [lia|]. split; [cbn; lia|].
      destruct (fit_some Hse Fl Sl E) as (u & v & El & Ei & U & V). split; [|split; [|split]].
      * cbn [firstn]. intros l' [<- | Hl']; [|now apply A]. intros m Hm O. unfold overlap in O. cbn in O. rewrite El, in_app_iff in Hm. rewrite Forall_forall in U, V. destruct Hm as [Hm | Hm]; [specialize (U m Hm) | specialize (V m Hm)]; lia.
      * exact B.
      * discriminate.
      * intros k' [= <-]. destruct k as [|k].
        -- rewrite (C eq_refl). exists l, u, v. cbn. repeat split; auto.
        -- destruct (D k eq_refl) as (l' & u' & v' & N & R). exists l', u', v'. split; [exact N | exact R].
    + intros [= <- <-]. exists 0. split; [lia|]. split; [lia|]. split; [intros l' []|]. split; [cbn; exact (fit_none Hse Fl Sl E)|]. split; [auto|]. intros k'; discriminate.
Qed.
Lemma tagged_app j a b : tagged j (a ++ b) = tagged j a ++ tagged (j + List.length a) b.
Proof. revert j; induction a as [|l a IH]; intros j; cbn; [now rewrite Nat.add_0_r|]. rewrite IH, <- app_assoc. replace (j + Datatypes.S (List.length a)) with (Datatypes.S j + List.length a) by lia. reflexivity. Qed.
Lemma tagged_in j ls m i : In (m, i) (tagged j ls) <-> j <= i /\ exists l, nth_error ls (i - j) = Some l /\ In m l.
Proof.
  revert j; induction ls as [|l ls IH]; intros j; cbn [tagged].
  - split; [intros [] |]. intros (_ & l & H & _). destruct (i - j); discriminate.
  - rewrite in_app_iff, in_map_iff, IH. split.
    + intros [(x & [= -> ->] & Hx) | (L & l' & N & Hm)]; [split; [lia|]; exists l; rewrite Nat.sub_diag; auto|]. split; [lia|]. exists l'. replace (i - j) with (S (i - S j)) by lia. auto.
    + intros (L & l' & N & Hm). destruct (Nat.eq_dec i j) as [-> | Ne].
      * left. rewrite Nat.sub_diag in N. injection N as <-. exists m. auto.
      * right. split; [lia|]. exists l'. replace (i - j) with (S (i - S j)) in N by lia. auto.
Qed.
Definition wf_layers (ls : list (list morph)) : Prop := Forall (Forall mok) ls /\ Forall sorted ls.
Lemma nth_error_rev A (l : list A) k : k < List.length l -> nth_error (rev l) k = nth_error l (List.length l - S k).
Proof.
  intros H. destruct (nth_error l (List.length l - S k)) as [x|] eqn:E; [|apply nth_error_None in E; lia].
  apply nth_error_split in E. destruct E as (u & v & -> & Lu). rewrite rev_app_distr. cbn [rev]. rewrite <- app_assoc. rewrite app_length in *. cbn [List.length] in *.
  rewrite nth_error_app2; rewrite rev_length; [|lia]. replace (k - List.length v) with 0 by lia. reflexivity.
Qed.
(** the effect of [place]: the new morphism goes to some layer [j] after every layer it overlaps with *)
Lemma place_spec c m ls : mok m -> wf_layers ls -> ls <> [] -> exists j, wf_layers (place c m ls) /\ place c m ls <> [] /\
  Permutation (tagged 0 (place c m ls)) ((m, j) :: tagged 0 ls) /\ (forall m' j', In (m', j') (tagged 0 ls) -> overlap m' m -> j' < j) /\
  (c = true -> forall j', j = S j' -> exists m', In (m', j') (tagged 0 ls) /\ overlap m' m) /\ (c = false -> place c m ls = ls ++ [[m]] /\ j = List.length ls).
Proof.
  intros Hm [F S] N. assert (APP : Forall (Forall mok) (ls ++ [[m]]) /\ Forall sorted (ls ++ [[m]])).
  { rewrite !Forall_app. repeat split; auto; repeat constructor; auto. }
  assert (PT : Permutation (tagged 0 (ls ++ [[m]])) ((m, List.length ls) :: tagged 0 ls)).
  { rewrite tagged_app. cbn. symmetry. apply Permutation_cons_append. }
  assert (LT : forall m' j', In (m', j') (tagged 0 ls) -> j' < List.length ls).
  { intros m' j' H. apply tagged_in in H. destruct H as (_ & l & H & _). apply (proj1 (nth_error_Some ls (j' - 0))) ; [|] || idtac. assert (nth_error ls (j' - 0) <> None) by congruence. apply nth_error_Some in H0. lia. }
  assert (NE : ls ++ [[m]] <> []) by (destruct ls; discriminate).
  unfold place. destruct c.
  - destruct (back (m_start m) (m_end m) (rev ls) 0 (List.length ls)) as [index li] eqn:E.
    destruct (@back_spec (m_start m) (m_end m) (rev ls) Hm (Forall_rev F) (Forall_rev S) 0 (List.length ls) index li) as (k & E1 & K & A & B & C & D); [now rewrite rev_length | exact E|].
    rewrite rev_length in K.
    assert (OV : forall x, overlap x (M true (m_start m) (m_end m)) <-> overlap x m) by (intros x; unfold overlap; cbn; tauto).
    assert (Above : forall m' j', In (m', j') (tagged 0 ls) -> overlap m' m -> j' < li).
    { intros m' j' H O. assert (Lj := LT _ _ H). apply tagged_in in H. destruct H as (_ & l & H & Hl). rewrite Nat.sub_0_r in H. destruct (Nat.lt_ge_cases j' li) as [G | G]; [exact G|]. exfalso.
      refine (A l _ m' Hl (proj2 (OV m') O)). set (q := List.length ls - Datatypes.S j'). assert (Q : nth_error (rev ls) q = Some l). { rewrite nth_error_rev by (unfold q; lia). replace (List.length ls - Datatypes.S q) with j' by (unfold q; lia). exact H. }
      assert (Hq : q < k) by (unfold q; lia). rewrite <- (firstn_skipn k (rev ls)) in Q. rewrite nth_error_app1 in Q by (rewrite firstn_length, rev_length; lia). exact (nth_error_In _ _ Q). }
    assert (Tight : forall j', li = Datatypes.S j' -> exists m', In (m', j') (tagged 0 ls) /\ overlap m' m).
    { intros j' Ej. assert (Q : nth_error (rev ls) k = nth_error ls j'). { rewrite nth_error_rev by lia. f_equal. lia. }
      rewrite Q in B. destruct (nth_error ls j') as [l|] eqn:El; [|apply nth_error_None in El; lia]. destruct B as (m' & I' & O'). exists m'. split; [|now apply OV]. apply tagged_in. split; [lia|]. exists l. rewrite Nat.sub_0_r. auto. }
    exists li. destruct k as [|k].
    + assert (E2 : li = List.length ls) by lia. destruct (nth_error ls li) eqn:En; [assert (X : nth_error ls li <> None) by congruence; apply nth_error_Some in X; lia|].
      rewrite E2 in *. split; [exact APP|]. split; [exact NE|]. split; [exact PT|]. split; [exact Above|]. split; [intros _; exact Tight | discriminate].
    + destruct (D k eq_refl) as (l & u & v & Nl & El & Ei & U & V). rewrite nth_error_rev in Nl by lia. replace (List.length ls - Datatypes.S k) with li in Nl by lia. rewrite Nl.
      destruct (nth_error_split _ _ Nl) as (a & b & Els & La). subst l index.
      assert (R1 : firstn li ls = a) by (rewrite Els, <- La, firstn_app, Nat.sub_diag, firstn_all; cbn; apply app_nil_r).
      assert (R2 : skipn (Datatypes.S li) ls = b). { rewrite Els, <- La. replace (Datatypes.S (List.length a)) with (List.length a + 1) by lia. rewrite skipn_app, skipn_all2 by lia. replace (List.length a + 1 - List.length a) with 1 by lia. reflexivity. }
      rewrite R1, R2. rewrite firstn_app, firstn_all, Nat.sub_diag, skipn_app, skipn_all, Nat.sub_diag. cbn [firstn skipn app]. rewrite app_nil_r.
      assert (Fs := F). assert (Ss := S). rewrite Els in Fs, Ss. rewrite Forall_app in Fs, Ss. destruct Fs as [Fa Fb]. destruct Ss as [Sa Sb]. inversion Fb as [|? ? Fl Fb']; subst. inversion Sb as [|? ? Sl Sb']; subst.
      split; [|split; [|split; [|split; [|split]]]].
      * split.
        -- rewrite Forall_app. split; [exact Fa|]. constructor; [|exact Fb']. rewrite Forall_app in *. destruct Fl. split; [assumption|]. now constructor.
        -- rewrite Forall_app. split; [exact Sa|]. constructor; [|exact Sb']. now apply sorted_insert.
      * intros E3; apply app_eq_nil in E3; destruct E3; discriminate.
      * rewrite !tagged_app. cbn [tagged]. rewrite !map_app. cbn [map].
        rewrite <- !app_assoc. cbn [app]. rewrite La, Nat.add_0_l. apply Permutation_sym. rewrite (app_assoc (tagged 0 a)). rewrite (app_assoc (tagged 0 a)). apply Permutation_middle.
      * exact Above.
      * intros _. exact Tight.
      * discriminate.
  - destruct (nth_error ls (List.length ls)) eqn:En; [assert (X : nth_error ls (List.length ls) <> None) by congruence; apply nth_error_Some in X; lia|].
    exists (List.length ls). split; [exact APP|]. split; [exact NE|]. split; [exact PT|]. split; [intros m' j' H _; exact (LT _ _ H)|]. split; [discriminate | auto].
Qed.

Lemma nth_error_snoc A (l : list A) x i y : nth_error (l ++ [x]) i = Some y -> (i < List.length l /\ nth_error l i = Some y) \/ (i = List.length l /\ y = x).
Proof.
  intros H. destruct (Nat.lt_ge_cases i (List.length l)) as [L | L].
  - left. split; [exact L|]. now rewrite nth_error_app1 in H.
  - right. rewrite nth_error_app2 in H by exact L. destruct (i - List.length l) as [|k] eqn:E; [|destruct k; discriminate]. cbn in H. injection H as <-. split; [lia | reflexivity].
Qed.
Lemma nth_error_app_l A (l l' : list A) i x : nth_error l i = Some x -> nth_error (l ++ l') i = Some x.
Proof. intros H. rewrite nth_error_app1; [exact H|]. apply nth_error_Some. congruence. Qed.
Lemma combine_snoc A B (l : list A) (l' : list B) x y : List.length l = List.length l' -> List.combine (l ++ [x]) (l' ++ [y]) = List.combine l l' ++ [(x, y)].
Proof. revert l'; induction l as [|a l IH]; intros [|b l'] H; cbn in *; try discriminate; auto. rewrite IH by lia. reflexivity. Qed.
Lemma combine_nth_in A B (l : list A) (l' : list B) x y : In (x, y) (List.combine l l') -> exists i, nth_error l i = Some x /\ nth_error l' i = Some y.
Proof.
  revert l'; induction l as [|a l IH]; intros [|b l'] H; cbn in *; try contradiction. destruct H as [[= <- <-] | H]; [exists 0; auto|]. destruct (IH _ H) as (i & ? & ?). exists (Datatypes.S i). auto.
Qed.
Lemma combine_in_nth A B (l : list A) (l' : list B) x y i : nth_error l i = Some x -> nth_error l' i = Some y -> In (x, y) (List.combine l l').
Proof. revert l l'; induction i as [|i IH]; intros [|a l] [|b l'] H H'; cbn in *; try discriminate; [left; congruence | right; eauto]. Qed.

Definition places (c : bool) (ms : list morph) : list (list morph) := fold_left (fun ls m => place c m ls) ms [[]].
Lemma places_scheduled c ms : Forall mok ms -> exists js, scheduled c ms js (places c ms) /\ wf_layers (places c ms) /\ places c ms <> [].
Proof.
  induction ms as [|m ms IH] using rev_ind; intros F.
  - exists []. unfold places; cbn. split; [|split; [|discriminate]].
    + constructor; cbn; auto.
      * repeat constructor.
      * intros [|i]; discriminate.
      * destruct c; [|reflexivity]. intros [|k]; discriminate.
    + split; repeat constructor.
  - rewrite Forall_app in F. destruct F as [F Fm]. inversion Fm as [|? ? Hm _]; subst. destruct (IH F) as (js & Sc & Wf & Ne). unfold places in *. rewrite fold_left_app. cbn [fold_left].
    set (ls := fold_left _ ms [[]]) in *. destruct (@place_spec c m ls Hm Wf Ne) as (j & Wf' & Ne' & P & Ab & Ti & NC). destruct Sc as [sl sa ss so st].
    exists (js ++ [j]). split; [|split; assumption]. constructor.
    + rewrite !app_length; cbn; lia.
    + rewrite combine_snoc by (symmetry; exact sl). rewrite P. rewrite sa. apply Permutation_cons_append.
    + exact (proj2 Wf').
    + intros i k m1 m2 j1 j2 L E1 E2 E3 E4 O. apply nth_error_snoc in E1, E2, E3, E4. rewrite sl in *.
      destruct E2 as [[L2 E2] | [L2 ->]]; destruct E4 as [[L4 E4] | [L4 ->]]; try lia.
      * destruct E1 as [[_ E1] | [? _]]; [|lia]. destruct E3 as [[_ E3] | [? _]]; [|lia]. exact (so i k m1 m2 j1 j2 L E1 E2 E3 E4 O).
      * destruct E1 as [[_ E1] | [? _]]; [|lia]. destruct E3 as [[_ E3] | [? _]]; [|lia]. apply (Ab m1 j1); [|exact O]. eapply Permutation_in; [symmetry; exact sa|]. exact (combine_in_nth E1 E3).
    + destruct c.
      * intros k m' j' E1 E2. apply nth_error_snoc in E1, E2. rewrite sl in *. destruct E1 as [[L1 E1] | [L1 ->]]; destruct E2 as [[L2 E2] | [L2 E2]]; try lia.
        -- destruct (st k m' j' E1 E2) as (i & m0 & L & A & B & C). exists i, m0. split; [exact L|]. split; [now apply nth_error_app_l|]. split; [now apply nth_error_app_l | exact C].
        -- destruct (Ti eq_refl j' (eq_sym E2)) as (m0 & I0 & O). apply (Permutation_in _ sa) in I0. destruct (combine_nth_in I0) as (i & A & B). exists i, m0.
           assert (i < List.length ms) by (apply nth_error_Some; congruence). split; [lia|]. split; [now apply nth_error_app_l|]. split; [now apply nth_error_app_l | exact O].
      * destruct (NC eq_refl) as [-> _]. rewrite st, map_app. reflexivity.
Qed.
