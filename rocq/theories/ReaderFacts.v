(** Readers (proofs only). *)
From Coq Require Import Ascii.
From Verif Require Import PyBase PyFacts TyModel TyFacts DiagModel DiagSpec DiagFacts DiagCups DiagMisc DiagKinds BoxEq CCGModel CCGSpec CCGTypeFacts CCGRuleFacts CCGTreeFacts CCGDiagFacts CCGMoreFacts AnsatzModel ReaderModel ReaderSpec.
Close Scope string_scope. Set Implicit Arguments. Unset Strict Implicit.
Lemma concat_const X (w : ty) (l : list X) : List.concat (map (fun _ => w) l) = ty_pow w (List.length l).
Proof. induction l; cbn; congruence. Qed.
Lemma rightmost_then a b c : d_then a b = Ok c -> rightmost a -> rightmost b -> rightmost c.
Proof. intros E Ha Hb. apply d_then_inv in E as (_ & ->). unfold rightmost. cbn. now apply Forall_app. Qed.
Lemma rightmost_tensor a b : dom b = [] -> rightmost a -> rightmost b -> rightmost (tensor a b).
Proof.
  intros D Ha Hb. unfold rightmost. rewrite layers_tensor, D. apply Forall_app. split; apply Forall_map; [eapply Forall_impl; [|exact Ha]|eapply Forall_impl; [|exact Hb]]; intros [[l x] r] E; cbn in *; subst; now rewrite ?app_nil_r.
Qed.
Lemma tensor_all_facts w ds : Forall (fun d => typed d [] w /\ rightmost d) ds ->
  typed (tensor_list (id []) ds) [] (ty_pow w (List.length ds)) /\ rightmost (tensor_list (id []) ds).
Proof.
  induction 1 as [|d ds [T R] F [T' R']]; [split; [apply typed_id|constructor]|]. change (tensor_list (id []) (d :: ds)) with (tensor_all (d :: ds)). rewrite tensor_all_cons.
  change (tensor_all ds) with (tensor_list (id []) ds). split; [exact (typed_tensor T T')|]. apply rightmost_tensor; auto. now destruct T' as (_ & D & _).
Qed.
Lemma node_case m w s r t cs : r <> LEXICAL -> tree2diag m w (CT s r t cs) = do ch <- mapR (tree2diag m w) cs; d_then (tensor_list (id []) ch) (to_diag (Box (node_name m (CT s r t cs)) (ty_pow w (List.length cs)) w 0)).
Proof. destruct r; congruence || reflexivity. Qed.
Lemma tree_ok m w x : wordy x -> exists d, tree2diag m w x = Ok d /\ typed d [] w /\ boxes d = map (node_box m w) (postorder x) /\ rightmost d.
Proof.
  induction x as [s r t cs IH] using ctree_ind'. intros H. inversion H as [|? ? ? ? NL NE F]; subst.
  - cbn. eexists. split; [reflexivity|]. split; [now apply typed_to_diag|]. split; [reflexivity|]. repeat constructor.
  - rewrite node_case by auto. assert (G : exists ds, mapR (tree2diag m w) cs = Ok ds /\ List.length ds = List.length cs /\ Forall (fun d => typed d [] w /\ rightmost d) ds /\ List.concat (map boxes ds) = map (node_box m w) (List.concat (map postorder cs))).
    { clear - IH F. induction IH as [|c cs Hc _ IHcs]; [exists []; repeat split; constructor|]. inversion F as [|? ? Fc Fs]; subst. destruct (Hc Fc) as (d & E & T & B & R), (IHcs Fs) as (ds & Es & L & Ts & Bs).
      exists (d :: ds). cbn [mapR]. rewrite E. cbn [bind]. rewrite Es. cbn [bind]. split; [reflexivity|]. split; [cbn; congruence|]. split; [constructor; auto|]. cbn [map List.concat]. rewrite map_app. congruence. }
    destruct G as (ds & -> & L & Ts & Bs). cbn [bind]. destruct (tensor_all_facts Ts) as [T R].
    assert (Tb : typed (to_diag (Box (node_name m (CT s r t cs)) (ty_pow w (List.length cs)) w 0)) (ty_pow w (List.length ds)) w) by (rewrite L; now apply typed_to_diag).
    destruct (typed_then T Tb) as (d & E & Td). exists d. split; auto. split; auto. split.
    + rewrite (boxes_then E), boxes_tensor_all, Bs. cbn [postorder]. rewrite map_app. f_equal. cbn [map]. unfold node_box. cbn [t_children]. destruct cs; [congruence|]. cbn [boxes to_diag layers map l_box fst snd]. do 2 f_equal. symmetry. exact (concat_const w (c :: cs)).
    + eapply rightmost_then; eauto. repeat constructor.
Qed.
Definition texts (x : ctree) : list string := map t_text (leaves x).
Definition spoken (x : ctree) : Prop := Forall (fun s => s <> ""%string) (texts x).
Lemma texts_node s r t cs : cs <> [] -> texts (CT s r t cs) = List.concat (map texts cs).
Proof. intros N. unfold texts. cbn [leaves]. destruct cs; [congruence|]. rewrite concat_map, map_map. reflexivity. Qed.
Lemma spoken_kids s r t cs : cs <> [] -> spoken (CT s r t cs) -> Forall spoken cs.
Proof.
  intros N H. unfold spoken in H. rewrite texts_node in H by auto. clear N. induction cs as [|c cs IH]; constructor; cbn in H; apply Forall_app in H as [H1 H2]; auto.
Qed.
Lemma build_wordy s r t ru' cs out ys y : cs <> [] -> r <> LEXICAL -> ru' <> LEXICAL -> Forall wordy cs -> Forall wordy ys -> List.length ys = List.length cs -> map texts ys = map texts cs ->
  (if all2 ctree_eqb ys cs && cty_eqb out t then Ok (CT s r t cs) else mk_tree None ru' out ys) = Ok y -> wordy y /\ texts y = texts (CT s r t cs).
Proof.
  intros N NL NL' Wc Wy L T E. destruct (all2 ctree_eqb ys cs && _).
  - inversion E. split; auto. now constructor.
  - unfold mk_tree in E. destruct (_ && _) in E; [discriminate|]. cbn [truthy andb] in E. inversion E; subst. assert (ys <> []) by (intros ->; destruct cs; [congruence|discriminate]). split; [now constructor|]. rewrite !texts_node by auto. now rewrite T.
Qed.
Lemma resolved_wordy x : forall out y, wordy x -> spoken x -> resolved x out = Ok y -> wordy y /\ texts y = texts x.
Proof.
  induction x as [s r t cs IH] using ctree_ind'. intros out y W S E. inversion W as [|? ? ? ? NL NE F]; subst.
  - cbn [resolved] in E. destruct (cty_eqb out t); [inversion E; split; [constructor|reflexivity]|]. assert (Tr : truthy (Some (t_text (CT s LEXICAL t []))) = true) by (inversion S as [|? ? Hs _]; subst; unfold truthy; apply negb_true_iff; now apply String.eqb_neq).
    unfold mk_tree in E. rewrite Tr in E. cbn in E. inversion E; subst. split; [constructor|reflexivity].
  - assert (Sk := spoken_kids NE S).
    assert (Z : forall dm ys, zipR resolved cs dm = Ok ys -> Forall wordy ys /\ List.length ys = List.length cs /\ map texts ys = map texts cs).
    { clear - IH F Sk. induction IH as [|c cs Hc _ IHcs]; intros dm ys E; [cbn in E; inversion E; repeat split; constructor|]. destruct dm as [|d dm]; [discriminate|]. cbn [zipR] in E. inversion F; inversion Sk; subst.
      destruct (resolved c d) as [c'|] eqn:Ec; [|discriminate]. cbn [bind] in E. destruct (zipR resolved cs dm) as [l|] eqn:El; [|discriminate]. cbn [bind] in E. inversion E; subst. destruct (Hc _ _ ltac:(auto) ltac:(auto) Ec) as [Wc Tc]. destruct (IHcs ltac:(auto) ltac:(auto) _ _ El) as (Wl & Ll & Tl).
      split; [constructor; auto|]. split; [cbn; congruence|]. cbn. congruence. }
    assert (B : forall ru' dm, ru' <> LEXICAL -> (do cs' <- zipR resolved cs dm; if all2 ctree_eqb cs' cs && cty_eqb out t then Ok (CT s r t cs) else mk_tree None ru' out cs') = Ok y -> wordy y /\ texts y = texts (CT s r t cs)).
    { intros ru' dm N' E'. destruct (zipR resolved cs dm) as [ys|] eqn:Ez; [|discriminate]. cbn [bind] in E'. destruct (Z _ _ Ez) as (Wy & L & Tx). eapply build_wordy; [exact NE|exact NL|exact N'|exact F|exact Wy|exact L|exact Tx|exact E']. }
    destruct r; try congruence; cbn [resolved] in E;
      try (match type of E with context [resolve ?r ?a ?b] => destruct (resolve r a b) as [dm|]; [|discriminate] end; cbn [bind] in E; eapply B; [|exact E]; discriminate).
    + destruct cs as [|c [|]]; try discriminate. destruct (directions_differ out (t_type c)).
      * destruct (swap_dom out) as [dm|]; [|discriminate]. cbn [bind] in E. eapply B; [|exact E]. discriminate.
      * inversion IH as [|? ? Hc _]; inversion F; inversion Sk; subst. destruct (Hc _ _ ltac:(assumption) ltac:(assumption) E) as [Wy Ty]. split; auto. rewrite texts_node by auto. cbn. now rewrite app_nil_r.
    + destruct cs as [|c [|c' [|]]]; try discriminate. destruct (rule_eqb (t_rule c) FTR).
      * destruct (c_left out) as [a1|]; [|discriminate]. cbn [bind] in E. destruct (c_right out) as [a2|]; [|discriminate]. cbn [bind] in E. destruct (c_right (t_type c)) as [a3|]; [|discriminate]. cbn [bind] in E. destruct (c_left a3) as [a4|]; [|discriminate]. cbn [bind] in E.
        match type of E with context [resolve ?r ?a ?b] => destruct (resolve r a b) as [dm|]; [|discriminate] end. cbn [bind] in E. eapply B; [|exact E]. discriminate.
      * match type of E with context [resolve ?r ?a ?b] => destruct (resolve r a b) as [dm|]; [|discriminate] end. cbn [bind] in E. eapply B; [|exact E]. discriminate.
    + match type of E with context [resolve ?r ?a ?b] => destruct (resolve r a b) as [dm|]; [|discriminate] end. cbn [bind] in E. destruct cs as [|c0 cs]; [congruence|]. eapply B; [|exact E]. destruct (c_is_conjoinable _); discriminate.
Qed.
Lemma words_post m w x : wordy x -> flat_map (fun b => match b with Word n _ _ => [n] | _ => [] end) (map (node_box m w) (postorder x)) = texts x.
Proof.
  induction x as [s r t cs IH] using ctree_ind'. intros H. inversion H as [|? ? ? ? NL NE F]; subst; [reflexivity|]. cbn [postorder]. rewrite map_app, flat_map_app, texts_node by auto.
  replace (flat_map _ (map (node_box m w) [CT s r t cs])) with (@nil string) by (cbn [map]; unfold node_box; cbn [t_children]; destruct cs; [congruence|reflexivity]). rewrite app_nil_r.
  clear H NE. induction IH as [|c cs Hc _ IHcs]; [reflexivity|]. inversion F; subst. cbn [map List.concat]. rewrite map_app, flat_map_app, Hc by auto. f_equal. auto.
Qed.
Lemma reader_ok m w sup x d : wordy x -> Forall (fun y => t_text y <> ""%string) (leaves x) -> tree2diagram m w sup x = Ok (Some d) ->
  exists y, resolved x (t_type x) = Ok y /\ wordy y /\ typed d [] w /\ boxes d = map (node_box m w) (postorder y) /\ rightmost d /\ word_names d = map t_text (leaves x).
Proof.
  intros W S E. assert (S' : spoken x) by (unfold spoken, texts; now apply Forall_map). unfold tree2diagram in E. destruct (resolved x (t_type x)) as [y|] eqn:Er; cbn [bind] in E; [|destruct sup; discriminate].
  destruct (resolved_wordy W S' Er) as [Wy Ty]. destruct (tree_ok m w Wy) as (d' & E' & T & B & R). rewrite E' in E. inversion E; subst. exists y. repeat (split; [auto; fail|]). unfold word_names. rewrite B, words_post by auto. exact Ty.
Qed.
Lemma deriv_wordy x : deriv x -> wordy x.
Proof.
  induction x as [s r t cs IH] using ctree_ind'. intros D. inversion D; subst; try constructor; try discriminate.
  - match goal with I : instance _ _ _ |- _ => apply (instance_not I) end.
  - intros ->. match goal with I : instance _ _ _ |- _ => cbn in I; inversion I end.
  - match goal with F : Forall deriv cs |- _ => clear - IH F; induction IH; inversion F; subst; constructor; auto end.
  - repeat match goal with F : Forall _ (_ :: _) |- _ => inversion F; clear F; subst end; repeat match goal with P : punct_leaf _ |- _ => destruct P as (? & ->) end; repeat (apply Forall_cons || apply Forall_nil); auto; try (constructor; fail).
  - repeat match goal with F : Forall _ (_ :: _) |- _ => inversion F; clear F; subst end; repeat match goal with P : punct_leaf _ |- _ => destruct P as (? & ->) end; repeat (apply Forall_cons || apply Forall_nil); auto; try (constructor; fail).
  - repeat match goal with F : Forall _ (_ :: _) |- _ => inversion F; clear F; subst end; repeat match goal with P : punct_leaf _ |- _ => destruct P as (? & ->) end; repeat (apply Forall_cons || apply Forall_nil); auto; try (constructor; fail).
  - repeat match goal with F : Forall _ (_ :: _) |- _ => inversion F; clear F; subst end; repeat match goal with P : punct_leaf _ |- _ => destruct P as (? & ->) end; repeat (apply Forall_cons || apply Forall_nil); auto; try (constructor; fail).
  - repeat match goal with F : Forall _ (_ :: _) |- _ => inversion F; clear F; subst end; repeat match goal with P : punct_leaf _ |- _ => destruct P as (? & ->) end; repeat (apply Forall_cons || apply Forall_nil); auto; try (constructor; fail).
Qed.
Lemma reader_total m w sup x : deriv x -> Forall (fun y => t_text y <> ""%string) (leaves x) -> exists d, tree2diagram m w sup x = Ok (Some d).
Proof.
  intros D S. assert (S' : spoken x) by (unfold spoken, texts; now apply Forall_map). destruct (resolved_deriv D) as (y & E & _). destruct (resolved_wordy (deriv_wordy D) S' E) as [Wy _]. destruct (tree_ok m w Wy) as (d & Ed & _).
  exists d. unfold tree2diagram. rewrite E. cbn [bind]. now rewrite Ed.
Qed.
(** ** str.split *)
Open Scope string_scope.
Lemma sapp_assoc (a b c : string) : (a ++ b) ++ c = a ++ b ++ c.
Proof. induction a; cbn; congruence. Qed.
Lemma sapp_nil (a : string) : a ++ "" = a.
Proof. induction a; cbn; congruence. Qed.
Lemma all_app p a b : all_chars p (a ++ b) = all_chars p a && all_chars p b.
Proof. induction a; cbn; auto. now rewrite IHa, andb_assoc. Qed.
Lemma blank_cons c s : is_space c = true -> blank s -> blank (String c s). Proof. unfold blank. cbn. now intros -> ->. Qed.
Lemma sep_space c s l : is_space c = true -> separated s l -> separated (String c s) l.
Proof.
  intros H S. destruct S.
  - constructor. now apply blank_cons.
  - apply (@Sep_last (String c b) t b'); auto. now apply blank_cons.
  - apply (@Sep_cons (String c b) t c0 b' s u l); auto. now apply blank_cons.
Qed.
Lemma sep_blank b s l : blank b -> separated s l -> separated (b ++ s) l.
Proof. induction b as [|c b IH]; cbn; auto. intros H S. unfold blank in H. cbn in H. apply andb_prop in H as [H1 H2]. apply sep_space; auto. Qed.
Lemma split_go_sep s : forall cur, (cur = "" \/ token cur) -> separated (cur ++ s) (split_go cur s).
Proof.
  induction s as [|c s IH]; intros cur H; cbn [split_go].
  - rewrite sapp_nil. destruct (String.eqb_spec cur ""); [subst; constructor; reflexivity|]. destruct H as [H|H]; [contradiction|]. rewrite <- (sapp_nil cur) at 1. apply (@Sep_last "" cur ""); auto; reflexivity.
  - destruct (is_space c) eqn:Ec.
    + assert (IH0 := IH "" (or_introl eq_refl)). cbn [append] in IH0. destruct (String.eqb_spec cur ""); [subst; now apply sep_space|]. destruct H as [H|H]; [contradiction|].
      destruct (split_go "" s) as [|u l] eqn:Es.
      * inversion IH0; subst. apply (@Sep_last "" cur (String c s)); auto; [reflexivity|]. now apply blank_cons.
      * apply (@Sep_cons "" cur c "" s u l); auto; reflexivity.
    + replace (cur ++ String c s) with ((cur ++ String c "") ++ s) by (rewrite sapp_assoc; reflexivity). apply IH. right. split.
      * destruct cur; discriminate.
      * rewrite all_app. cbn. rewrite Ec. cbn. rewrite andb_true_r. destruct H as [->|[_ H]]; auto.
Qed.
Lemma split_blank b : forall s, blank b -> split_go "" (b ++ s) = split_go "" s.
Proof. induction b as [|c b IH]; intros s H; [reflexivity|]. unfold blank in H. cbn in H. apply andb_prop in H as [H1 H2]. cbn. rewrite H1. now apply IH. Qed.
Lemma split_token t : forall cur s, all_chars (fun c => negb (is_space c)) t = true -> split_go cur (t ++ s) = split_go (cur ++ t) s.
Proof.
  induction t as [|c t IH]; intros cur s H; [now rewrite sapp_nil|]. cbn in H. apply andb_prop in H as [H1 H2]. apply negb_true_iff in H1. cbn [append split_go]. rewrite H1, IH by auto. now rewrite sapp_assoc.
Qed.
Lemma split_iff s l : separated s l <-> py_split s = l.
Proof.
  split; [|intros <-; exact (@split_go_sep s "" (or_introl eq_refl))]. unfold py_split. induction 1 as [b H|b t b' H1 [N H2] H3|b t c b' s u l H1 [N H2] Hc H3 S IH].
  - rewrite <- (sapp_nil b), split_blank by auto. reflexivity.
  - rewrite split_blank, split_token by auto. cbn [append]. destruct b' as [|c b']; cbn [split_go].
    + destruct (String.eqb_spec t ""); congruence.
    + unfold blank in H3. cbn in H3. apply andb_prop in H3 as [H3 H4]. rewrite H3. destruct (String.eqb_spec t ""); [congruence|]. rewrite <- (sapp_nil b'), split_blank by auto. reflexivity.
  - rewrite split_blank, split_token by auto. cbn [append split_go]. rewrite Hc. destruct (String.eqb_spec t ""); [congruence|]. rewrite split_blank by auto. now rewrite IH.
Qed.
Close Scope string_scope.
(** ** linear readers *)
Lemma words_diag_facts w start toks : wf start -> typed (words_diag w start toks) (dom start) (cod start ++ ty_pow w (List.length toks)) /\ boxes (words_diag w start toks) = boxes start ++ map (fun t => Word t w 0) toks.
Proof.
  intros W. unfold words_diag. rewrite tensor_list_fold. assert (G : forall d a b, typed d a b -> typed (fold_left tensor (map (fun t => to_diag (Word t w 0)) toks) d) a (b ++ ty_pow w (List.length toks)) /\ boxes (fold_left tensor (map (fun t => to_diag (Word t w 0)) toks) d) = boxes d ++ map (fun t => Word t w 0) toks).
  { induction toks as [|t l IH]; intros d a b T; cbn [map fold_left List.length ty_pow]; [now rewrite !app_nil_r|].
    assert (Tw : typed (to_diag (Word t w 0)) [] w) by now apply typed_to_diag. assert (T2 := typed_tensor T Tw). rewrite app_nil_r in T2. destruct (IH _ _ _ T2) as [T' B']. rewrite <- app_assoc in T'. split; auto. rewrite B', boxes_tensor, <- app_assoc. reflexivity. }
  apply G. split; auto.
Qed.
Definition stack_end (d : diagram) (d0 : diagram) (b : box) (n : nat) : Prop := exists ls, layers d = layers d0 ++ ls /\ map l_box ls = repeat b n /\ Forall (fun x => fst (fst x) = []) ls.
Lemma slice_drop X (l r : list X) : py_slice (l ++ r) (Some (Z.of_nat (List.length l))) None = r.
Proof. unfold py_slice, adj. replace (Z.of_nat (List.length l) <? 0)%Z with false by (symmetry; apply Z.ltb_ge; lia). rewrite Nat2Z.id, app_length. replace (Nat.min _ _) with (List.length l) by lia. rewrite skipn_app, skipn_all, Nat.sub_diag. cbn. replace (List.length l + List.length r - List.length l) with (List.length r) by lia. apply firstn_all. Qed.
Lemma loop_step b X r f d a : box_ok b -> typed d a (b_dom b ++ r) -> b_cod b = X -> 1 < List.length (b_dom b ++ r) ->
  exists d', combine_loop (to_diag b) (S f) d = combine_loop (to_diag b) f d' /\ typed d' a (X ++ r) /\ layers d' = layers d ++ [([], b, r)].
Proof.
  intros Hb T E L. cbn [combine_loop]. destruct T as (W & D & C). rewrite C. replace (1 <? List.length (b_dom b ++ r)) with true by (symmetry; apply Nat.ltb_lt; auto). change (dom (to_diag b)) with (b_dom b). rewrite slice_drop.
  assert (T1 : typed (tensor (to_diag b) (id r)) (b_dom b ++ r) (X ++ r)) by (subst X; apply typed_tensor; [now apply typed_to_diag|apply typed_id]).
  destruct (@typed_then d (tensor (to_diag b) (id r)) a (b_dom b ++ r) (X ++ r)) as (d' & E' & T'); auto. { split; auto. }
  rewrite E'. exists d'. split; auto. split; auto. apply d_then_inv in E' as (_ & ->). cbn [layers]. f_equal. rewrite layers_tensor. cbn. reflexivity.
Qed.
Lemma loop_done c f d : List.length (cod d) <= 1 -> combine_loop c f d = Some (Ok d).
Proof. intros H. destruct f; cbn [combine_loop]; replace (1 <? List.length (cod d)) with false by (symmetry; apply Nat.ltb_ge; auto); reflexivity. Qed.
Lemma cups_loop a n : forall f d, typed d a (aS :: ty_pow [rot_atom 1 aS; aS] n) ->
  exists d', combine_loop (to_diag (Cup aS (rot_atom 1 aS) false)) (n + f) d = Some (Ok d') /\ typed d' a [aS] /\ stack_end d' d (Cup aS (rot_atom 1 aS) false) n.
Proof.
  induction n as [|n IH]; intros f d T.
  - exists d. split; [apply loop_done; destruct T as (_ & _ & ->); cbn; auto|]. split; auto. exists []. rewrite app_nil_r. repeat split; constructor.
  - destruct (@loop_step (Cup aS (rot_atom 1 aS) false) [] (aS :: ty_pow [rot_atom 1 aS; aS] n) (n + f) d a) as (d1 & E1 & T1 & L1); [cbn; auto|exact T|reflexivity|cbn; lia|].
    destruct (IH f d1 T1) as (d' & E' & T' & ls & L' & M' & F'). exists d'. split; [cbn [Nat.add]; now rewrite E1|]. split; auto. eexists (_ :: ls). rewrite L', L1, <- app_assoc. split; [reflexivity|]. split; [cbn; now rewrite M'|]. constructor; auto.
Qed.
Lemma stairs_loop a n : forall f d, typed d a (aS :: ty_pow [aS] n) ->
  exists d', combine_loop (to_diag (Box "STAIR" [aS; aS] [aS] 0)) (n + f) d = Some (Ok d') /\ typed d' a [aS] /\ stack_end d' d (Box "STAIR" [aS; aS] [aS] 0) n.
Proof.
  induction n as [|n IH]; intros f d T.
  - exists d. split; [apply loop_done; destruct T as (_ & _ & ->); cbn; auto|]. split; auto. exists []. rewrite app_nil_r. repeat split; constructor.
  - destruct (@loop_step (Box "STAIR" [aS; aS] [aS] 0) [aS] (ty_pow [aS] n) (n + f) d a) as (d1 & E1 & T1 & L1); [cbn; auto|exact T|reflexivity|cbn; lia|].
    destruct (IH f d1 T1) as (d' & E' & T' & ls & L' & M' & F'). exists d'. split; [cbn [Nat.add]; now rewrite E1|]. split; auto. eexists (_ :: ls). rewrite L', L1, <- app_assoc. split; [reflexivity|]. split; [cbn; now rewrite M'|]. constructor; auto.
Qed.
Lemma stack_boxes d d0 b n : stack_end d d0 b n -> boxes d = boxes d0 ++ repeat b n.
Proof. intros (ls & E & M & _). unfold boxes. now rewrite E, map_app, M. Qed.
(** termination in general *)
Lemma loop_terminates c f : wf c -> List.length (cod c) < List.length (dom c) -> forall d, List.length (cod d) <= f -> combine_loop c f d <> None.
Proof.
  intros W L. induction f as [|f IH]; intros d Hd; cbn [combine_loop].
  - replace (1 <? List.length (cod d)) with false by (symmetry; apply Nat.ltb_ge; lia). discriminate.
  - destruct (1 <? _); [|discriminate]. destruct (d_then _ _) as [d'|] eqn:E; [|discriminate]. apply IH. apply d_then_inv in E as (E1 & ->). cbn [cod]. rewrite dom_tensor in E1. cbn in E1. assert (E2 := f_equal (@List.length _) E1). rewrite cod_tensor. cbn [cod id]. rewrite !app_length in *.
  unfold py_slice. lia.
Qed.
(** divergence *)
Lemma loop_diverges c X a f : typed c X X -> 2 <= List.length X -> forall r d, typed d a (X ++ r) -> combine_loop c f d = None.
Proof.
  intros Tc L. induction f as [|f IH]; intros r d T; cbn [combine_loop]; destruct T as (W & D & C); rewrite C; replace (1 <? List.length (X ++ r)) with true by (symmetry; apply Nat.ltb_lt; rewrite app_length; lia); auto.
  destruct Tc as (Wc & Dc & Cc). rewrite Dc, slice_drop. destruct (@typed_then d (tensor c (id r)) a (X ++ r) (X ++ r)) as (d' & E' & T').
  - split; auto.
  - apply typed_tensor; [split; auto|apply typed_id].
  - rewrite E'. eapply IH; eauto.
Qed.
Lemma result_one c f : forall d d', combine_loop c f d = Some (Ok d') -> List.length (cod d') <= 1 /\ exists ls, layers d' = layers d ++ ls.
Proof.
  induction f as [|f IH]; intros d d'; cbn [combine_loop]; destruct (Nat.ltb_spec 1 (List.length (cod d))); intros E; try discriminate; try (inversion E; subst; split; [lia|exists []; now rewrite app_nil_r]).
  destruct (d_then _ _) as [d1|] eqn:E1; [|discriminate]. destruct (IH _ _ E) as (L & ls & El). split; auto. apply d_then_inv in E1 as (_ & ->). cbn [layers] in El. rewrite <- app_assoc in El. eauto.
Qed.
(** ** statements about the readers *)
Lemma words_right w start toks : Forall (fun x => snd x = []) (layers start) -> Forall (fun x => snd x = []) (layers (words_diag w start toks)).
Proof.
  unfold words_diag. rewrite tensor_list_fold. revert start. induction toks as [|t l IH]; intros start F; cbn [map fold_left]; auto. apply IH. rewrite layers_tensor. apply Forall_app. split.
  - apply Forall_map. eapply Forall_impl; [|exact F]. intros [[a b] r] E. cbn in *. subst. now rewrite app_nil_r.
  - cbn. repeat constructor.
Qed.
Lemma stack_shape d d0 b n k : Forall (fun x => snd x = []) (layers d0) -> List.length (layers d0) = k -> stack_end d d0 b n -> words_then_left k d.
Proof. intros F K (ls & E & _ & L). unfold words_then_left. rewrite E, <- K, firstn_app, skipn_app, firstn_all, skipn_all, Nat.sub_diag. cbn. rewrite app_nil_r. auto. Qed.
Lemma boxes_len d : List.length (boxes d) = List.length (layers d). Proof. apply map_length. Qed.
Lemma cups_ok tk s toks f : tokens tk s = Ok toks ->
  exists d, cups_reader (List.length toks + f) tk s = Some (Ok d) /\ typed d [] [aS] /\
    boxes d = Word "START" [aS] 0 :: map (fun t => Word t [rot_atom 1 aS; aS] 0) toks ++ repeat (Cup aS (rot_atom 1 aS) false) (List.length toks) /\ words_then_left (1 + List.length toks) d.
Proof.
  intros E. unfold cups_reader, linear_reader. rewrite E.
  destruct (@words_diag_facts [rot_atom 1 aS; aS] (to_diag (Word "START" [aS] 0)) toks) as [T B]. { refine (proj1 (@typed_to_diag (Word "START" [aS] 0) _ _ _ eq_refl eq_refl)). cbn. auto. }
  destruct (cups_loop f T) as (d & Ed & Td & Sd). exists d. split; [exact Ed|]. split; [exact Td|]. split.
  - rewrite (stack_boxes Sd), B. reflexivity.
  - eapply stack_shape; [|  |exact Sd]. { apply words_right. repeat constructor. } rewrite <- boxes_len, B. cbn. now rewrite map_length.
Qed.
Lemma stairs_ok tk s t toks f : tokens tk s = Ok (t :: toks) ->
  exists d, stairs_reader (List.length toks + f) tk s = Some (Ok d) /\ typed d [] [aS] /\
    boxes d = map (fun t => Word t [aS] 0) (t :: toks) ++ repeat (Box "STAIR" [aS; aS] [aS] 0) (List.length toks) /\ words_then_left (1 + List.length toks) d.
Proof.
  intros E. unfold stairs_reader, linear_reader. rewrite E.
  destruct (@words_diag_facts [aS] (id []) (t :: toks)) as [T B]. { apply typed_id. }
  destruct (@stairs_loop _ (List.length toks) f _ T) as (d & Ed & Td & Sd). exists d. split; [exact Ed|]. split; [exact Td|]. split.
  - rewrite (stack_boxes Sd), B. reflexivity.
  - eapply stack_shape; [|  |exact Sd]. { apply words_right. constructor. } rewrite <- boxes_len, B. cbn. now rewrite map_length.
Qed.
Lemma stairs_empty tk s f : tokens tk s = Ok [] -> stairs_reader f tk s = Some (Ok (id [])).
Proof. intros E. unfold stairs_reader, linear_reader. rewrite E. apply loop_done. cbn. auto. Qed.
Lemma spiders_ok tk s toks : tokens tk s = Ok toks ->
  exists d, spiders_reader tk s = Ok d /\ typed d [] [aS] /\ boxes d = map (fun t => Word t [aS] 0) toks ++ [Spider aS (List.length toks) 1] /\ words_then_left (List.length toks) d.
Proof.
  intros E. unfold spiders_reader. rewrite E. cbn [bind spider]. destruct (@words_diag_facts [aS] (id []) toks) as [T B]. { apply typed_id. }
  assert (Ts : typed (to_diag (Spider aS (List.length toks) 1)) (ty_pow [aS] (List.length toks)) [aS]).
  { assert (Q := @typed_to_diag (Spider aS (List.length toks) 1) _ _ I eq_refl eq_refl). destruct Q as (Q1 & Q2 & Q3). split; auto. split; auto. change (b_dom (Spider aS (List.length toks) 1) = ty_pow [aS] (List.length toks)). cbn. clear. induction (List.length toks); cbn in *; congruence. }
  destruct (typed_then T Ts) as (d & Ed & Td). exists d. split; [exact Ed|]. split; [exact Td|]. apply d_then_inv in Ed as (_ & Ed). subst d. split.
  - unfold boxes. cbn [layers]. rewrite map_app. unfold boxes in B. rewrite B. reflexivity.
  - split; cbn [layers]; rewrite ?firstn_app, ?skipn_app; assert (L : List.length (layers (words_diag [aS] (id []) toks)) = List.length toks) by (rewrite <- boxes_len, B; cbn; now rewrite map_length); rewrite L, Nat.sub_diag; [rewrite <- L, firstn_all|rewrite <- L, skipn_all]; cbn [firstn skipn]; rewrite ?app_nil_r.
    + apply words_right. constructor.
    + cbn. repeat constructor.
Qed.
Lemma tokens_ok tk s toks : tokens tk s = Ok toks <-> (tk = true /\ s = SToks toks) \/ (tk = false /\ exists t, s = SStr t /\ separated t toks).
Proof.
  unfold tokens. split.
  - destruct tk, s; intros E; inversion E; subst; auto. right. split; auto. eexists. split; [reflexivity|]. now apply split_iff.
  - intros [[-> ->]|(-> & t & -> & S)]; auto. now rewrite (proj1 (split_iff _ _) S).
Qed.
Lemma readers_refuse tk s : (forall toks, tokens tk s <> Ok toks) -> (forall c w st f, linear_reader c w st f tk s = Some (Err ValueError)) /\ spiders_reader tk s = Err ValueError.
Proof. intros H. assert (E : tokens tk s = Err ValueError). { destruct (tokens tk s) eqn:E; [exfalso; eapply H; eauto|]. revert E. unfold tokens. destruct tk, s; congruence. } unfold linear_reader, spiders_reader. now rewrite E. Qed.
Lemma reader_ends c w st tk s toks f : wf c -> List.length (cod c) < List.length (dom c) -> tokens tk s = Ok toks ->
  List.length (cod st) + List.length toks * List.length w <= f -> wf st ->
  exists r, linear_reader c w st f tk s = Some r /\ forall d, r = Ok d -> List.length (cod d) <= 1 /\ exists ls, layers d = layers (words_diag w st toks) ++ ls.
Proof.
  intros W L E Hf Ws. unfold linear_reader. rewrite E. destruct (combine_loop c f (words_diag w st toks)) as [r|] eqn:Er.
  - exists r. split; auto. intros d ->. eapply result_one; eauto.
  - exfalso. eapply loop_terminates; [exact W|exact L| |exact Er]. destruct (@words_diag_facts w st toks Ws) as [(_ & _ & ->) _]. rewrite app_length. enough (List.length (ty_pow w (List.length toks)) = List.length toks * List.length w) by lia. clear. induction (List.length toks); cbn; auto. rewrite app_length. lia.
Qed.
Lemma reader_diverges c w st tk s toks xs r : typed c xs xs -> 2 <= List.length xs -> tokens tk s = Ok toks -> wf st ->
  cod st ++ ty_pow w (List.length toks) = xs ++ r -> forall f, linear_reader c w st f tk s = None.
Proof. intros T L E W C f. unfold linear_reader. rewrite E. destruct (@words_diag_facts w st toks W) as [Q _]. rewrite C in Q. eapply loop_diverges; eauto. Qed.
Lemma reader_suppress m w x : exists r, tree2diagram m w true x = Ok r /\ (r = None <-> exists e, tree2diagram m w false x = Err e) /\ (forall d, r = Some d <-> tree2diagram m w false x = Ok (Some d)).
Proof.
  unfold tree2diagram. destruct (do y <- _; _) as [d|e]; eexists; (split; [reflexivity|]); split; try intros d'; split; intros H; try discriminate; try (inversion H; subst; eauto; fail).
  destruct H as [e H]. discriminate.
Qed.
Lemma is_space_list c : is_space c = true <-> In (Ascii.nat_of_ascii c) [9; 10; 11; 12; 13; 28; 29; 30; 31; 32; 133; 160].
Proof.
  unfold is_space. cbv zeta. set (n := Ascii.nat_of_ascii c). rewrite !orb_true_iff, !andb_true_iff, !Nat.leb_le, !Nat.eqb_eq. cbn [In]. lia.
Qed.
Lemma height_path x : longest_path x (t_height x).
Proof.
  induction x as [s r t cs IH] using ctree_ind'. cbn [t_height]. destruct cs as [|c0 cs]. { split; [constructor|]. intros n P. inversion P; subst; auto. contradiction. }
  split.
  - assert (G : exists c, In c (c0 :: cs) /\ list_max (map t_height (c0 :: cs)) = t_height c).
    { clear IH. revert c0. induction cs as [|c1 cs IHc]; intros c0; [exists c0; cbn; split; auto; lia|]. destruct (IHc c1) as (c & I1 & E). change (list_max (map t_height (c0 :: c1 :: cs))) with (Nat.max (t_height c0) (list_max (map t_height (c1 :: cs)))). rewrite E.
      destruct (Nat.max_spec (t_height c0) (t_height c)) as [[_ ->]|[_ ->]]; [exists c; split; auto; now right|exists c0; split; auto; now left]. }
    destruct G as (c & I1 & ->). econstructor; [exact I1|]. rewrite Forall_forall in IH. now apply IH.
  - intros n P. inversion P; subst. rewrite Forall_forall in IH. match goal with I1 : In ?c _, P1 : path ?c ?m |- _ => assert (m <= t_height c) by now apply (proj2 (IH _ I1)) end.
    match goal with I1 : In ?c (c0 :: cs) |- _ => assert (L : t_height c <= list_max (map t_height (c0 :: cs))) end. { assert (F := proj1 (list_max_le (map t_height (c0 :: cs)) _) (Nat.le_refl _)). rewrite Forall_forall in F. apply F. now apply in_map. } lia.
Qed.
Lemma names_ok w x : wordy x -> t_children x <> [] ->
  b_name (node_box NO_TYPE w x) = "UNIBOX"%string /\ b_name (node_box RULE_ONLY w x) = rule_value (t_rule x) /\
  b_name (node_box RULE_TYPE w x) = (rule_value (t_rule x) ++ "(" ++ String.concat ", " (map (fun c => to_string (t_type c)) (t_children x)) ++ ")")%string /\
  exists h, b_name (node_box HEIGHT w x) = ("layer_" ++ AnsatzModel.str_nat h)%string /\ longest_path x h.
Proof.
  intros _ N. unfold node_box. destruct (t_children x) as [|c cs] eqn:E; [congruence|]. cbn [b_name node_name]. rewrite E. repeat (split; [reflexivity|]). exists (t_height x). split; [reflexivity|apply height_path].
Qed.
