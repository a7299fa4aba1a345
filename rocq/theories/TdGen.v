(** Any diagram the converter returns (C68, lemmas only). *)
From Coq Require Import Sorted.
From Verif Require Import PyBase PyFacts TyModel TyFacts DiagModel DiagSpec DiagFacts DiagPerm DiagCups DiagKinds DiagMisc MiscModel MiscFacts TreeModel TreeSpec TreeFacts TreeRew TdModel TdSpec TdComps TdPairs TdWires TdFix TdDraw TdPlanar.
Close Scope string_scope. Set Implicit Arguments. Unset Strict Implicit.

Definition cup_swap (x : layer) : Prop := (exists a b rv, l_box x = Cup a b rv) \/ (exists a b, l_box x = Swap a b).
Lemma py_set_len A (l l' : list A) i x : py_set l i x = Ok l' -> List.length l' = List.length l.
Proof. unfold py_set. destruct (py_pos _ i); cbn; [|discriminate]. intros [= <-]. apply set_nth_len. Qed.
Lemma foldM_keep S A (f : S -> A -> res S) (I : S -> Prop) l : (forall s x s', f s x = Ok s' -> I s -> I s') -> forall s s', foldM f l s = Ok s' -> I s -> I s'.
Proof. intros H. induction l as [|x l IH]; intros s s' E Hs; cbn in E; [now injection E as <-|]. destruct (f s x) as [s1|] eqn:E1; cbn in E; [|discriminate]. eapply IH; eauto. Qed.
Lemma add_child_len n c (st st' : wcomps * list (Z * Z)) : add_child n st c = Ok st' -> List.length (fst st') = List.length (fst st).
Proof.
  destruct st as [wc cups]. unfold add_child. destruct (py_index wc (n_ind n)); cbn [bind]; [|discriminate]. destruct (_ <? _)%Z.
  - destruct (py_set wc _ _) as [w1|] eqn:E1; cbn [bind]; [|discriminate]. destruct (py_index w1 _); cbn [bind]; [|discriminate]. destruct (py_set w1 _ _) as [w2|] eqn:E2; cbn [bind]; [|discriminate]. intros [= <-]. cbn [fst]. now rewrite (py_set_len E2), (py_set_len E1).
  - destruct (py_set wc _ _) as [w1|] eqn:E1; cbn [bind]; [|discriminate]. destruct (py_index w1 _); cbn [bind]; [|discriminate]. destruct (py_set w1 _ _) as [w2|] eqn:E2; cbn [bind]; [|discriminate]. intros [= <-]. cbn [fst]. now rewrite (py_set_len E2), (py_set_len E1).
Qed.
Lemma components_len root ntok wc cs : components root ntok = Ok (wc, cs) -> List.length wc = ntok.
Proof.
  unfold components. destruct (py_set _ _ _) as [w0|] eqn:E0; cbn [bind]; [|discriminate]. rewrite walk_pairs. intros E. apply py_set_len in E0. rewrite repeat_length in E0.
  refine (@foldM_keep _ _ _ (fun st : wcomps * list (Z * Z) => List.length (fst st) = ntok) _ _ _ _ E E0). intros s [n c] s' Es Is. now rewrite (add_child_len Es).
Qed.
Definition same_parts (wc wc' : wcomps) : Prop := List.length wc' = List.length wc /\ forall i, Permutation (nth i wc' []) (nth i wc []).
Lemma fix_at_parts st st' i : fix_at st i = Ok st' -> same_parts (snd st) (snd st').
Proof.
  destruct st as [ds wc]. unfold fix_at. assert (Re : same_parts wc wc) by (split; auto). destruct (nth_error wc i) as [[|c0 [|c1 [|]]]|] eqn:E0; try (intros [= <-]; exact Re). destruct (_ && _ && _); [|intros [= <-]; exact Re]. destruct (nth_error ds i) as [d|]; [|discriminate]. destruct (negb _); [discriminate|].
  destruct (mapM _ d); cbn [bind]; [|discriminate]. destruct (min_list _); cbn [bind]; [|discriminate]. destruct (word_dict _ _ _ _) as [[? ?] ?]. intros [= <-]. cbn [snd]. split; [apply set_nth_len|]. intros j. assert (L : i < List.length wc) by (apply nth_error_Some; congruence). rewrite set_nth_nth by exact L. destruct (Nat.eqb_spec j i) as [->|]; [|reflexivity]. rewrite (nth_error_nth _ _ [] E0). constructor.
Qed.
Lemma fix_parts ds wc ds' wc' : fix_auxiliary ds wc = Ok (ds', wc') -> same_parts wc wc'.
Proof.
  unfold fix_auxiliary. intros E. refine (@foldM_keep _ _ _ (fun st : list wdict * wcomps => same_parts wc (snd st)) _ _ _ _ E _); [|split; auto]. intros s x s' Es [L P]. destruct (fix_at_parts Es) as [L' P']. split; [now rewrite L'|]. intros i. now rewrite P'.
Qed.
Lemma cup_layers_cup t : Forall cup_swap (cup_layers t).
Proof. rewrite cup_layers_nth. apply Forall_forall. intros x Hx. apply in_map_iff in Hx. destruct Hx as (i & <- & _). left. cbn. eauto. Qed.
Lemma kind_layers (P : box -> Prop) d : kinds P d -> Forall (fun x => P (l_box x)) (layers d).
Proof. unfold kinds, boxes. generalize (layers d). induction l as [|x l IH]; cbn; intros H; inversion H; subst; constructor; auto. Qed.
Lemma tensor_mid a b t : Forall cup_swap (layers b) -> Forall cup_swap (layers (tensor (tensor (id a) b) (id t))).
Proof.
  intros H. assert (K : kinds (fun b => (exists a c rv, b = Cup a c rv) \/ (exists a c, b = Swap a c)) (tensor (tensor (id a) b) (id t))).
  { unfold kinds. rewrite !boxes_tensor, !boxes_id, app_nil_r. cbn [app]. unfold boxes. apply Forall_forall. intros x Hx. apply in_map_iff in Hx. destruct Hx as (y & <- & Hy). rewrite Forall_forall in H. exact (H y Hy). }
  exact (kind_layers K).
Qed.
Lemma draw_gen fuel : forall xs d d', draw fuel xs d = Ok d' -> wf d -> wf d' /\ dom d' = dom d /\ exists ls, layers d' = layers d ++ ls /\ Forall cup_swap ls.
Proof.
  induction fuel as [|f IH]; intros xs d d' E W; cbn [draw] in E; [injection E as <-; split; [exact W|]; split; [reflexivity|]; exists []; split; [now rewrite app_nil_r | constructor]|].
  destruct xs as [|[[[t ml] mr] off] xs]; [injection E as <-; split; [exact W|]; split; [reflexivity|]; exists []; split; [now rewrite app_nil_r | constructor]|]. cbv zeta in E. set (tl := py_slice (cod d) (Some ml) (Some (ml + 1)%Z)) in *. set (tr := py_slice (cod d) (Some mr) (Some (mr + 1)%Z)) in *.
  assert (B : forall b, match t with KCup => cups tl tr false | _ => swap tl tr end = Ok b -> wf b /\ Forall cup_swap (layers b)).
  { assert (Sw : forall b, swap tl tr = Ok b -> wf b /\ Forall cup_swap (layers b)). { intros b Eb. destruct (tk_swap tl tr) as (b' & Eb' & (Wb & _) & Kb). rewrite Eb in Eb'. injection Eb' as <-. split; [exact Wb|]. eapply Forall_impl; [|exact (kind_layers Kb)]. intros x Hx. cbn beta in Hx. unfold cup_swap. destruct (l_box x); try contradiction. right. eauto. }
    intros b Eb. destruct t; [|now apply Sw|now apply Sw]. assert (I := cups_inv Eb). rewrite I in Eb. destruct (cups_typed tr) as (b' & Eb' & (Wb & _)). rewrite Eb in Eb'. injection Eb' as <-. split; [exact Wb|]. rewrite cups_eq in Eb. injection Eb as <-. apply cup_layers_cup. }
  destruct (match t with KCup => _ | _ => _ end) as [b|] eqn:Eb; cbn [bind] in E; [|discriminate]. destruct (B b eq_refl) as [Wb Kb]. destruct (d_then d _) as [d1|] eqn:E1; cbn [bind] in E; [|discriminate].
  assert (W1 : wf d1) by (eapply wf_then; [exact W | | exact E1]; repeat apply wf_tensor; auto using wf_id). destruct (IH _ _ _ E W1) as (W' & D' & ls & L' & K'). apply d_then_inv in E1. destruct E1 as [_ ->]. cbn [dom layers] in *. split; [exact W'|]. split; [exact D'|]. eexists. split; [rewrite L', <- app_assoc; reflexivity|]. apply Forall_app. split; [now apply tensor_mid | exact K'].
Qed.
Theorem any_ok root tokens b d : tree2diagram root tokens b = Ok d -> exists wc ls, List.length wc = List.length tokens /\ (tidy (List.length tokens) root -> forall i, i < List.length tokens -> Permutation (nth i wc []) (links root (Z.of_nat i))) /\
  wf d /\ dom d = [] /\ layers d = word_layers [] (words_of tokens wc) ++ ls /\ Forall cup_swap ls /\ is_pregroup d = true.
Proof.
  unfold tree2diagram. destruct (components root (List.length tokens)) as [[wc ccups]|] eqn:Ec; cbn [bind]; [|discriminate]. destruct (word_dicts 0 wc []) as [ds free]. destruct (fix_auxiliary ds wc) as [[ds' wc']|] eqn:Ef; cbn [bind]; [|discriminate]. destruct (mapM _ ccups); cbn [bind]; [|discriminate]. cbv zeta. destruct (with_swaps _ _) as [nms|]; cbn [bind]; [|discriminate]. fold (words_of tokens wc').
  destruct (@create_pregroup_spec (words_of tokens wc') [] (EmptyString, 0%Z) [] (seq 0 (List.length (flat_map snd (words_of tokens wc'))))) as (d0 & E0 & Wf0 & D0 & C0 & L0); [constructor|]. rewrite app_nil_r in L0. rewrite E0. cbn [bind]. intros E.
  destruct (fix_parts Ef) as [Lf Pf]. assert (Lc := components_len Ec).
  assert (G : wf d /\ dom d = [] /\ exists ls, layers d = word_layers [] (words_of tokens wc') ++ ls /\ Forall cup_swap ls).
  { destruct b; [injection E as <-; split; [exact Wf0|]; split; [exact D0|]; exists []; split; [now rewrite app_nil_r | constructor]|]. destruct (draw_gen E Wf0) as (W & D & ls & L & K). rewrite D0 in D. rewrite L0 in L. eauto. }
  destruct G as (W & D & ls & L & K). exists wc', ls. split; [congruence|]. split; [|split; [exact W|split; [exact D|split; [exact L|split; [exact K|]]]]].
  - intros Td i Hi. rewrite Pf. destruct (comps_ok Td) as (wc2 & A & Ec2 & _ & _ & WL). rewrite Ec in Ec2. injection Ec2 as <- _. apply WL. exact Hi.
  - apply is_pregroup_spec. split; [exact D|]. exists (word_layers [] (words_of tokens wc')), ls. split; [exact L|]. split.
    + enough (G : forall ws pre l b r, In (l, b, r) (word_layers pre ws) -> r = [] /\ exists n c z, b = Word n c z) by exact (G _ []). clear. induction ws as [|[n c] ws IH]; intros pre l b r; cbn; [intros []|]. intros [[= <- <- <-]|I]; [split; eauto|eapply IH; eauto].
    + intros l b0 r I. rewrite Forall_forall in K. destruct (K _ I) as [H|H]; [left | right]; exact H.
Qed.
Lemma words_combine tokens : forall wc : wcomps, words_of tokens wc = combine tokens (map (fun l : list wcomp => List.concat (map snd l)) wc).
Proof. unfold words_of. induction tokens as [|t ts IH]; intros [|c wc]; cbn; auto. f_equal. apply IH. Qed.
