(** Filling in the placeholders of a simple rule's template (proofs only). *)
From Verif Require Import PyBase PyFacts TyModel TyFacts DiagModel DiagSpec DiagFacts DiagRot BoxEq
  FunctorModel FunctorSpec FunctorCache FunctorFacts RewModel RewSpec RewFacts RewUnk.
Set Implicit Arguments. Unset Strict Implicit.

Section Fill.
  Variable name : string.
  Notation A := (replace_placeholder name).
  Notation G := (F_box id_ob A).
  Notation nm n := (if String.eqb n%string PLACEHOLDER then name else n%string).
  Lemma ph_word n c : A (Word n c 0) = Ok (to_diag (Word (nm n) c 0)).
  Proof. unfold replace_placeholder. cbn [b_name]. destruct (String.eqb n PLACEHOLDER); reflexivity. Qed.
  Lemma fw_word n c z : G (Word n c z) = Ok (to_diag (Word (nm n) c z)).
  Proof.
    set (b := Word n c z).
    assert (U : b_unwind b = Word n (rot (-z) c) 0). { unfold b, b_unwind. cbn. f_equal. lia. }
    rewrite (@F_box_unwind id_ob A iob Hid b (to_diag (Word (nm n) (rot (-z) c) 0))); auto.
    - cbn [b_z b b_end]. rewrite d_rotate_to_diag. cbn [b_rotate]. rewrite rot_add, Z.add_opp_diag_r, rot_0. reflexivity.
    - exact I.
    - exact I.
    - rewrite U. apply respects_id. eexists. split; [apply ph_word|]. now apply typed_to_diag.
    - rewrite U. apply ph_word.
    - cbn. auto.
  Qed.
  Lemma ph_other b : basic b -> is_word b = false -> placeholder_word b -> A b = Ok (to_diag b).
  Proof.
    intros B W P. unfold replace_placeholder. destruct (String.eqb_spec (b_name b) PLACEHOLDER) as [E|E]; auto.
    destruct b; cbn in *; try contradiction; try discriminate; try exact (False_ind _ (P E)).
    clear P. unfold PLACEHOLDER in E. repeat (destruct name0 as [|? name0]; cbn in E; [discriminate|injection E as -> E]). destruct name0; discriminate E.
  Qed.
  Lemma fw_plain b : basic b -> is_word b = false -> placeholder_word b -> (b_z b = 0%Z \/ (match b with Box _ _ _ _ => True | _ => False end)) ->
    box_ok b -> G b = Ok (to_diag b).
  Proof.
    intros B W Pw Hz Ho. destruct (Z.eqb_spec (b_z b) 0) as [E|E].
    - rewrite F_box_basic0 by auto. rewrite ph_other by auto.
      rewrite (@F_check_ok id_ob iob Hid); rewrite ?Fo_id; auto.
    - destruct Hz as [Hz|Hz]; [contradiction|]. destruct b as [bn bd bc bz| | | | | | | |]; try contradiction. set (b := Box bn bd bc bz) in *.
      assert (U : b_unwind b = Box bn (rot (-bz) bd) (rot (-bz) bc) 0). { unfold b, b_unwind. cbn. f_equal. lia. }
      assert (E' : A (b_unwind b) = Ok (to_diag (b_unwind b))).
      { apply ph_other; rewrite U; auto; exact I. }
      rewrite (@F_box_unwind id_ob A iob Hid b (to_diag (b_unwind b))); auto.
      + unfold b_unwind. rewrite d_rotate_to_diag. rewrite b_rotate_add by exact I. rewrite Z.add_opp_diag_r. now rewrite b_rotate_0.
      + apply respects_id. eexists; split; eauto. apply typed_box. now rewrite U.
      + cbn. auto.
  Qed.
  Lemma fw_box b : box_ok b -> flat_box b -> placeholder_word b -> G b = Ok (to_diag (fill_box name b)).
  Proof.
    intros Ho Hf Pw. destruct b; cbn [flat_box] in Hf.
    - apply fw_plain; auto; exact I.
    - apply fw_word.
    - apply (@F_cap id_ob A iob Hid); auto using Fa_iob.
    - apply (@F_cup id_ob A iob Hid); auto using Fa_iob.
    - apply (@F_swap id_ob A iob Hid); auto using Fa_iob.
    - apply (@F_spider id_ob A iob Hid); auto using Fa_iob.
    - destruct b as [bn bd bc bz|wn wc wz| | | | | | |]; try contradiction.
      + rewrite (@F_dagg id_ob A iob Hid (Box bn bd bc bz) (to_diag (Box bn bd bc bz))).
        * now rewrite d_dagger_to_diag.
        * rewrite !Fo_id. now apply typed_box.
        * apply fw_plain; auto; exact I.
      + rewrite (@F_dagg id_ob A iob Hid (Word wn wc wz) (to_diag (Word (nm wn) wc wz))); auto.
        * rewrite !Fo_id. now apply typed_to_diag.
        * apply fw_word.
    - apply fw_plain; auto; exact I.
    - apply fw_plain; auto; exact I.
  Qed.
  Lemma fw_diag t : wf t -> All (fun x => flat_box (l_box x) /\ placeholder_word (l_box x)) (layers t) ->
    F_diag id_ob A t = Ok (fill name t).
  Proof.
    intros [W1 W2] Hf. rewrite (@F_diag_eq id_ob A iob Hid t) by auto.
    assert (X : mapM (@F_layer id_ob A iob) (layers t) = Ok (map (fun x : layer => [(fst (fst x), fill_box name (l_box x), snd x)]) (layers t))).
    { clear W1. induction (layers t) as [|x ls IH]; cbn [All mapM map] in *; auto.
      destruct W2 as [O W2], Hf as [[F P] Hf]. destruct x as [[l b] r]. cbn [l_box F_layer] in *.
      rewrite fw_box by auto. cbn [rmap bind]. rewrite IH by auto. cbn. now rewrite !app_nil_r, !Fo_id. }
    rewrite X. cbn. rewrite !Fo_id. unfold fill. f_equal. f_equal. clear. induction (layers t); cbn; auto. now f_equal.
  Qed.
End Fill.
