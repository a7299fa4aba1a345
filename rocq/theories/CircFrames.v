(** Sentences as frames (C71, lemmas only). *)
From Verif Require Import PyBase PyFacts TyModel TyFacts DiagModel DiagSpec DiagFacts MiscModel TreeModel TreeSpec TreeFacts CircModel CircSpec CircPerm CircRun CircMatch CircStep.
Close Scope string_scope. Set Implicit Arguments. Unset Strict Implicit.

Lemma slots_node pruned w i t p cs : noun_slots pruned (Node w i t p cs) = (if bare_noun (Node w i t p cs) && negb (memZ i pruned) then [Node w i t p cs] else []) ++ List.concat (map (noun_slots pruned) cs).
Proof. unfold noun_slots. rewrite subtrees_node. cbn [filter n_ind]. unfold memZ. destruct (_ && _); cbn [app]; rewrite filter_concat, map_map; reflexivity. Qed.
Lemma bare_eq w i t p cs : bare_noun (Node w i t p cs) = ty_eqb t NOUN && null cs.
Proof. unfold bare_noun. cbn. destruct cs; cbn; [now rewrite andb_true_r | now rewrite andb_false_r]. Qed.
Definition piece_words (p : piece) : list string := match p with PId _ => [] | PBox b => box_words b end.
Lemma frames_rec_spec pruned n : let '(pc, nouns, inds) := frames_rec pruned n in nouns = map noun_box (noun_slots pruned n) /\ inds = map n_ind (noun_slots pruned n) /\ piece_words pc = shown pruned n /\
  (piece_comps pc = [] -> piece_words pc = []) /\ All (comp_ok box_ok) (piece_comps pc) /\
  (arguments (n_typ n) = [] -> typed (piece_diag pc) (repeat a_n (List.length nouns)) (repeat a_n (List.length nouns))).
Proof.
  induction n as [w i t p cs IH] using node_rec. rewrite slots_node, bare_eq. cbn [frames_rec n_typ shown]. rewrite bare_eq. destruct (ty_eqb t NOUN && null cs) eqn:B; cbn [andb].
  - apply andb_true_iff in B. destruct B as [_ B]. destruct cs; [|discriminate]. cbn [map List.concat app]. destruct (memZ i pruned); cbn [orb negb app piece_diag piece_comps piece_words]; repeat split; cbn; auto; apply wf_id.
  - cbn [app orb]. set (subs := map (frames_rec pruned) cs).
    assert (Hn : List.concat (map (fun x => snd (fst x)) subs) = map noun_box (List.concat (map (noun_slots pruned) cs))).
    { unfold subs. rewrite concat_map, !map_map. f_equal. apply map_ext_in. intros c Hc. rewrite Forall_forall in IH. specialize (IH c Hc). destruct (frames_rec pruned c) as [[pc ns] is]. apply IH. }
    assert (Hi : List.concat (map snd subs) = map n_ind (List.concat (map (noun_slots pruned) cs))).
    { unfold subs. rewrite concat_map, !map_map. f_equal. apply map_ext_in. intros c Hc. rewrite Forall_forall in IH. specialize (IH c Hc). destruct (frames_rec pruned c) as [[pc ns] is]. apply IH. }
    assert (Hw : List.concat (map (fun c => match c with CBox b' => box_words b' | CDiag _ _ ls => List.concat (map (fun '(_, b', _) => box_words b') ls) end) (List.concat (map (fun x => piece_comps (fst (fst x))) subs))) = List.concat (map (shown pruned) cs)).
    { unfold subs. rewrite map_map. clear -IH. induction IH as [|c cs Hc _ IH]; [reflexivity|]. cbn [map List.concat]. rewrite map_app, concat_app, IH. f_equal. destruct (frames_rec pruned c) as [[pc ns] is]. destruct Hc as (_ & _ & E & _ & _). rewrite <- E. destruct pc; cbn; [reflexivity | now rewrite app_nil_r]. }
    assert (Ho : All (comp_ok box_ok) (List.concat (map (fun x => piece_comps (fst (fst x))) subs))).
    { unfold subs. rewrite map_map. clear -IH. induction IH as [|c cs Hc _ IH]; [exact I|]. cbn [map List.concat]. destruct (frames_rec pruned c) as [[pc ns] is]. destruct Hc as (_ & _ & _ & _ & E & _). cbn [fst] in *. destruct pc; cbn in *; [exact IH | split; [apply E | exact IH]]. }
    rewrite Hn, Hi. unfold floating. rewrite slots_node, bare_eq, B. cbn [andb app n_typ]. fold (arguments t). set (sl := List.concat (map (noun_slots pruned) cs)) in *.
    assert (Fl : null (map noun_box sl) && null (arguments t) = match sl with [] => match arguments t with [] => true | _ => false end | _ => false end) by (destruct sl, (arguments t); reflexivity). rewrite Fl.
    destruct (match sl with [] => _ | _ => false end) eqn:E.
    + destruct sl; [|discriminate]. cbn. repeat split; auto.
    + assert (Ty : arguments t = [] -> (ty_pow NOUN (List.length (map noun_box sl)) ++ rot (-1) (arguments t))%list = repeat a_n (List.length (map noun_box sl))) by (intros ->; change (rot (-1) []) with (@nil atom); rewrite app_nil_r; apply nn_repeat).
      remember (List.concat (map (fun x => piece_comps (fst (fst x))) subs)) as Cs eqn:ECs. clear ECs. destruct (null Cs) eqn:E2; cbn [piece_words piece_comps piece_diag box_words All comp_ok].
      * destruct Cs as [|c0 Cs]; [|cbn in E2; congruence]. cbn in Hw. rewrite <- Hw. split; [reflexivity|]. split; [reflexivity|]. split; [reflexivity|]. split; [discriminate|]. split; [repeat split|]. intros Ha. split; [apply wf_to_diag; exact I|]. rewrite <- Ty by exact Ha. split; reflexivity.
      * rewrite Hw. split; [reflexivity|]. split; [reflexivity|]. split; [reflexivity|]. split; [discriminate|]. split; [split; [exact Ho | exact I]|]. intros Ha. split; [apply wf_to_diag; exact Ho|]. rewrite <- Ty by exact Ha. split; reflexivity.
Qed.
