(** The circuit of a whole text (C71, lemmas only). *)
From Coq Require Import Permutation Sorted.
From Verif Require Import PyBase PyFacts TyModel TyFacts DiagModel DiagSpec DiagFacts DiagRot DiagPerm DiagMisc MiscModel MiscFacts TreeModel CircModel CircSpec CircPerm CircRun CircMatch CircStep.
Close Scope string_scope. Set Implicit Arguments. Unset Strict Implicit.

Notation part := (diagram * list box * list ent)%type.
Definition starts (xs : list part) : Prop := match xs with [] => True | x :: _ => snd x <> [] end.
Notation ents := (entities ent_eqb).
Lemma ents_snoc xs sd nouns nids : ents (xs ++ [(sd, nouns, nids)]) = ents xs ++ news ent_eqb (map fst (ents xs)) (combine nids nouns).
Proof. unfold entities. now rewrite fold_left_app. Qed.
Lemma ents_box xs : Forall (@fits ent) xs -> forall b, In b (map snd (ents xs)) -> exists w, b = Box w [] [a_n] 0.
Proof.
  induction xs as [|[[sd nouns] nids] xs IH] using rev_ind; intros H b Hb; [destruct Hb|]. apply Forall_app in H. destruct H as [H Hx]. destruct (Forall_inv Hx) as (_ & L & B). rewrite ents_snoc, map_app in Hb. apply in_app_or in Hb. destruct Hb as [Hb | Hb]; [now apply IH|].
  apply in_map_iff in Hb. destruct Hb as ([e b'] & <- & Hb). apply (news_sub (eqk := ent_eqb)) in Hb. apply in_combine_r in Hb. now apply B.
Qed.
Lemma ents_nodup xs : NoDup (map fst (ents xs)).
Proof. induction xs as [|[[sd nouns] nids] xs IH] using rev_ind; [constructor|]. rewrite ents_snoc, map_app. now apply (news_nodup ent_ok). Qed.
Lemma ents_start x xs : snd x <> [] -> fits x -> ents (x :: xs) <> [].
Proof.
  intros H Fx. induction xs as [|[[sd' nouns'] nids'] xs IH] using rev_ind; [|rewrite app_comm_cons, ents_snoc; destruct (ents (x :: xs)); [congruence | discriminate]].
  destruct x as [[sd nouns] nids]. destruct Fx as (_ & L & _). cbn in *. destruct nids as [|e nids]; [congruence|]. destruct nouns as [|b nouns]; [discriminate|]. discriminate.
Qed.
Lemma run_ents V (bsem : box -> list V -> list V) merge xs : fst (text_run ent_eqb bsem merge xs) = map fst (ents xs).
Proof.
  induction xs as [|[[sd nouns] nids] xs IH] using rev_ind; [reflexivity|]. rewrite ents_snoc, map_app, <- IH. unfold text_run. rewrite fold_left_app. cbn [fold_left]. destruct (fold_left _ xs _) as [es vs]. reflexivity.
Qed.
Lemma concat_one V (bsem : box -> list V -> list V) merge l : reading bsem merge -> (forall b, In b (map snd l) -> exists w, b = Box w [] [a_n] 0) -> List.length (List.concat (map (fun p : ent * box => bsem (snd p) []) l)) = List.length l.
Proof.
  intros R. induction l as [|[e b] l IH]; intros H; [reflexivity|]. cbn [map List.concat snd]. destruct (H b (or_introl eq_refl)) as [w ->]. rewrite app_length, IH by (intros; apply H; now right). rewrite (r_arity R) by reflexivity. reflexivity.
Qed.
Lemma steps_ok xs : starts xs -> Forall (@fits ent) xs -> exists big, foldM circ_step xs (id [], [], []) = Ok (big, dict_of (map fst (ents xs)), map snd (ents xs)) /\
  typed big (repeat a_n (List.length (ents xs))) (repeat a_n (List.length (ents xs))) /\
  forall V (bsem : box -> list V -> list V) merge, reading bsem merge -> drun bsem big (List.concat (map (fun p => bsem (snd p) []) (ents xs))) = snd (text_run ent_eqb bsem merge xs).
Proof.
  induction xs as [|[[sd nouns] nids] xs IH] using rev_ind; intros St H; [exists (id []); repeat split|].
  assert (Hx := H). apply Forall_app in H. destruct H as [H Fx]. assert (F1 := Forall_inv Fx). destruct IH as (big & E & T & Sem); [destruct xs; [exact I | exact St] | exact H|].
  rewrite foldM_app, E. cbn [bind foldM]. assert (N := ents_nodup xs). assert (T' : typed big (repeat a_n (List.length (map fst (ents xs)))) (repeat a_n (List.length (map fst (ents xs))))) by now rewrite map_length.
  destruct (@circ_step_ok (map fst (ents xs)) big sd (map snd (ents xs)) nouns nids N T' F1) as (c & Ec & Tc & Sc).
  { rewrite <- map_app, <- ents_snoc with (sd := sd). destruct xs as [|x xs].
    - assert (Y := @ents_start (sd, nouns, nids) [] St F1). cbn [app]. destruct (ents [(sd, nouns, nids)]); [congruence | discriminate].
    - assert (Y := @ents_start x (xs ++ [(sd, nouns, nids)]) St ltac:(now inversion H)). cbn [app]. destruct (ents (x :: xs ++ _)); [congruence | discriminate]. }
  exists c. rewrite Ec. cbn [bind]. rewrite <- !map_app, <- (ents_snoc xs sd) in Tc |- *. rewrite map_length in Tc. split; [now rewrite <- map_app, <- (ents_snoc xs sd)|]. split; [exact Tc|].
  intros V bsem merge R. rewrite (ents_snoc xs sd), map_app, concat_app. set (F := news ent_eqb (map fst (ents xs)) (combine nids nouns)) in *.
  assert (BF : forall b, In b (map snd F) -> exists w, b = Box w [] [a_n] 0). { intros b Hb. apply (ents_box Hx). rewrite (ents_snoc xs sd), map_app. apply in_or_app. now right. }
  rewrite (Sc V bsem merge R); [| rewrite (concat_one R), map_length; [reflexivity | now apply ents_box] | now apply (concat_one R)].
  rewrite (Sem V bsem merge R). unfold text_run. rewrite fold_left_app. cbn [fold_left]. assert (Re := run_ents bsem merge xs). unfold text_run in Re. destruct (fold_left _ xs _) as [es vs]. cbn [fst snd] in *. subst es. cbn [sentence_run snd]. fold F. reflexivity.
Qed.
(** the noun boxes *)
Lemma states_ok bs : (forall b, In b bs -> exists w, b = Box w [] [a_n] 0) -> typed (tensor_list (id []) (map to_diag bs)) [] (repeat a_n (List.length bs)) /\
  forall V (bsem : box -> list V -> list V) merge, reading bsem merge -> drun bsem (tensor_list (id []) (map to_diag bs)) [] = List.concat (map (fun b => bsem b []) bs).
Proof.
  induction bs as [|b bs IH] using rev_ind; intros H; [repeat split|]. destruct IH as (T & Sem); [intros; apply H, in_or_app; now left|]. destruct (H b) as [w ->]; [apply in_or_app; right; now left|].
  assert (Tb : typed (to_diag (Box w [] [a_n] 0)) [] [a_n]) by (repeat split). rewrite map_app. cbn [map]. rewrite tensor_list_snoc. split.
  - assert (Y := typed_tensor T Tb). rewrite app_length, repeat_app. exact Y.
  - intros V bsem merge R. rewrite map_app, concat_app. cbn [map List.concat]. assert (Y := @drun_tensor V bsem merge R _ _ [] [] (proj1 T) (proj1 Tb)). cbn [app] in Y. rewrite Y; [|now rewrite (proj1 (proj2 T)) | reflexivity]. rewrite (Sem V bsem merge R). f_equal. 
Qed.
Lemma circuit_ok xs : starts xs -> Forall (@fits ent) xs -> exists d, (do (st : diagram * list (ent * nat) * list box) <- foldM circ_step xs (id [], [], []); let '(big, _, boxes) := st in d_then (tensor_list (id []) (map to_diag boxes)) big) = Ok d /\
  typed d [] (repeat a_n (List.length (ents xs))) /\ forall V (bsem : box -> list V -> list V) merge, reading bsem merge -> drun bsem d [] = snd (text_run ent_eqb bsem merge xs).
Proof.
  intros St H. destruct (steps_ok St H) as (big & E & T & Sem). destruct (states_ok (ents_box H)) as (Tb & Sb). rewrite map_length in Tb. destruct (typed_then Tb T) as (d & Ed & Td). exists d. rewrite E. cbn [bind]. split; [exact Ed|]. split; [exact Td|].
  intros V bsem merge R. rewrite (drun_then _ _ Ed), (Sb V bsem merge R), map_map. apply (Sem V bsem merge R).
Qed.
Lemma circuit_empty sd nouns xs : fits (K := ent) (sd, nouns, []) -> foldM circ_step ((sd, nouns, []) :: xs) (id [], [], []) = Err ValueError.
Proof. intros F1. cbn [foldM]. assert (E := @circ_step_empty [] (id []) sd [] nouns [] F1 eq_refl). change (dict_of (K := ent) []) with (@nil (ent * nat)) in E. now rewrite E. Qed.
