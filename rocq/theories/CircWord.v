(** A word of a sandwich (C71, lemmas only). *)
From Coq Require Import Permutation Sorted DecimalString.
From Verif Require Import PyBase PyFacts TyModel TyFacts DiagModel DiagSpec DiagFacts DiagRot DiagPerm DiagMisc MiscModel MiscFacts TreeModel TreeSpec TreeFacts CircModel CircSpec CircPerm CircRun CircMatch CircStep CircFrames CircSand.
Close Scope string_scope. Set Implicit Arguments. Unset Strict Implicit.

Lemma drun_box V (bsem : box -> list V -> list V) b v : List.length v = List.length (b_dom b) -> drun bsem (to_diag b) v = bsem b v.
Proof. intros L. unfold drun. cbn. rewrite <- L, firstn_all, skipn_all. now rewrite app_nil_r. Qed.
Definition big (w : string) (k : nat) (sfx : string) : box := Box (w ++ sfx)%string (nouns_ty k) (nouns_ty k) 0.
Lemma big_typed w k sfx : typed (to_diag (big w k sfx)) (repeat a_n k) (repeat a_n k).
Proof. apply typed_to_diag; [exact I | reflexivity | reflexivity]. Qed.
Definition small (k : nat) (y : diagram) : Prop := exists kj, kj <= k /\ typed y (repeat a_n kj) (repeat a_n kj).
Definition widen (k : nat) (y : diagram) : diagram := tensor y (id (nn (k - List.length (cod y)))).
Lemma widen_typed k y : small k y -> typed (widen k y) (repeat a_n k) (repeat a_n k).
Proof. intros (kj & L & T). unfold widen. assert (C := proj2 (proj2 T)). rewrite C, repeat_length. assert (Y := typed_tensor T (typed_id_n (k - kj))). rewrite repeat_app_ in Y. now replace (kj + (k - kj)) with k in Y by lia. Qed.
Lemma add_part w k y a sfx : small k y -> typed a (repeat a_n k) (repeat a_n k) -> exists b c, d_then a (widen k y) = Ok b /\ d_then b (to_diag (big w k sfx)) = Ok c /\ cod b = nouns_ty k /\ typed c (repeat a_n k) (repeat a_n k) /\
  forall V (bsem : box -> list V -> list V) merge, reading bsem merge -> forall vs, List.length vs = k -> drun bsem c vs = bsem (big w k sfx) (drun bsem (widen k y) (drun bsem a vs)).
Proof.
  intros S T. destruct (typed_then T (widen_typed S)) as (b & Eb & Tb). destruct (typed_then Tb (big_typed w k sfx)) as (c & Ec & Tc). exists b, c. split; [exact Eb|]. split; [exact Ec|]. split; [apply Tb|]. split; [exact Tc|].
  intros V bsem merge R vs L. rewrite (drun_then _ _ Ec), (drun_then _ _ Eb). apply drun_box. rewrite <- (drun_then _ _ Eb). destruct Tb as (W & D & C). rewrite (drun_len R W); [rewrite C; reflexivity | rewrite D, repeat_length; exact L].
Qed.
Definition mid_sfx (fol : bool) (i : nat) : string := if fol then ("$_{" ++ dec (i + 1) ++ "}$")%string else EmptyString.
Lemma mids_ok w fol k ys : Forall (small k) ys -> forall a, typed a (repeat a_n k) (repeat a_n k) -> exists c, foldM (sand_mid w fol k) (enum ys) a = Ok c /\ typed c (repeat a_n k) (repeat a_n k) /\
  forall V (bsem : box -> list V -> list V) merge, reading bsem merge -> forall vs, List.length vs = k -> drun bsem c vs = fold_left (fun v '(i, y) => bsem (big w k (mid_sfx fol i)) (drun bsem (widen k y) v)) (enum ys) (drun bsem a vs).
Proof.
  intros H a T. induction ys as [|y ys IH] using rev_ind; [exists a; repeat split; auto; apply T|]. apply Forall_app in H. destruct H as [H Hy]. destruct (IH H) as (c & Ec & Tc & Sc). destruct (@add_part w k y c (mid_sfx fol (List.length ys)) (Forall_inv Hy) Tc) as (b & c' & Eb & Ec' & Cb & Tc' & Sc').
  exists c'. rewrite enum_snoc, foldM_app, Ec. cbn [bind foldM]. unfold sand_mid at 1. fold (widen k y). rewrite Eb. cbn [bind]. rewrite Cb. fold (mid_sfx fol (List.length ys)). fold (big w k (mid_sfx fol (List.length ys))). rewrite Ec'. cbn [bind]. split; [reflexivity|]. split; [exact Tc'|].
  intros V bsem merge R vs L. rewrite (Sc' V bsem merge R vs L), fold_left_app. cbn [fold_left]. now rewrite (Sc V bsem merge R vs L).
Qed.
Lemma fold_suffix V (bsem : box -> list V -> list V) w fol k ys o : forall v, fold_left (fun v '(i, y) => bsem (big w k (mid_sfx fol i)) (drun bsem (widen k y) v)) (combine (seq o (List.length ys)) ys) v =
  fold_left (fun v '(sfx, y) => bsem (big w k sfx) (drun bsem (widen k y) v)) (combine (if fol then map (fun i => ("$_{" ++ NilEmpty.string_of_uint (Nat.to_uint i) ++ "}$")%string) (seq (S o) (List.length ys)) else repeat EmptyString (List.length ys)) ys) v.
Proof.
  revert o. induction ys as [|y ys IH]; intros o v; [now destruct fol|]. cbn [List.length seq combine fold_left]. rewrite IH. destruct fol; cbn [map repeat combine fold_left mid_sfx]; unfold dec; rewrite ?Nat.add_1_r; reflexivity.
Qed.
Lemma build_ok w fol k ys : Forall (small k) ys -> exists d, sand_build w fol ys k = Ok d /\ typed d (repeat a_n k) (repeat a_n k) /\
  forall V (bsem : box -> list V -> list V) merge, reading bsem merge -> forall vs, List.length vs = k -> drun bsem d vs =
    fold_left (fun v '(sfx, y) => bsem (big w k sfx) (drun bsem (widen k y) v)) (combine (suffixes fol (List.length ys)) ys) (bsem (big w k (match ys with [] => "" | _ => if fol then "$_{top}$" else "" end)%string) vs).
Proof.
  intros H. unfold sand_build. set (sfx0 := (if fol && negb (null ys) then "$_{top}$" else "")%string). assert (E0 : sfx0 = (match ys with [] => "" | _ => if fol then "$_{top}$" else "" end)%string) by (unfold sfx0; destruct ys, fol; reflexivity). rewrite <- E0. clearbody sfx0. clear E0.
  rewrite !nn_repeat. fold (nouns_ty k). fold (big w k sfx0). cbv zeta.
  destruct ys as [|yl ys] using rev_ind; [|clear IHys]; [|apply Forall_app in H; destruct H as [H Hy]].
  - cbn [removelast enum combine List.length seq foldM bind rev]. exists (to_diag (big w k sfx0)). split; [reflexivity|]. split; [apply big_typed|]. intros V bsem merge R vs L. rewrite drun_box by (cbn; now unfold nouns_ty; rewrite repeat_length). destruct fol; reflexivity.
  - rewrite removelast_last, rev_app_distr. cbn [rev app]. destruct (mids_ok w fol H (big_typed w k sfx0)) as (c & Ec & Tc & Sc). rewrite Ec. cbn [bind]. destruct (@add_part w k yl c (if fol then "$_{bottom}$" else "")%string (Forall_inv Hy) Tc) as (b & d & Eb & Ed & Cb & Td & Sd).
    exists d. fold (widen k yl). rewrite Eb. cbn [bind]. rewrite Cb. split; [exact Ed|]. split; [exact Td|]. intros V bsem merge R vs L. rewrite (Sd V bsem merge R vs L), (Sc V bsem merge R vs L). rewrite drun_box by (cbn; now unfold nouns_ty; rewrite repeat_length).
    unfold enum. rewrite fold_suffix. unfold suffixes. rewrite app_length. cbn [List.length]. rewrite Nat.add_1_r. cbn [Nat.sub]. rewrite Nat.sub_0_r. destruct fol.
    + rewrite combine_snoc by (now rewrite map_length, seq_length). rewrite fold_left_app. reflexivity.
    + change (repeat EmptyString (S (List.length ys))) with (EmptyString :: repeat EmptyString (List.length ys)). rewrite repeat_cons, combine_snoc by (now rewrite repeat_length). rewrite fold_left_app. reflexivity.
Qed.
Lemma Forall2_length A B (P : A -> B -> Prop) l m : Forall2 P l m -> List.length l = List.length m.
Proof. induction 1; cbn; congruence. Qed.
(** ** parts *)
Lemma combine_app_ A B (a a' : list A) (b b' : list B) : List.length a = List.length b -> combine (a ++ a') (b ++ b') = combine a b ++ combine a' b'.
Proof. revert b. induction a as [|x a IH]; intros [|y b] H; try discriminate; [reflexivity|]. cbn in *. now rewrite IH by lia. Qed.
Section Stir.
  Variables (K : Type) (eqk : K -> K -> bool).
  Hypothesis eqk_ok : forall a b, eqk a b = true <-> a = b.
  Variables (V : Type) (bsem : box -> list V -> list V) (merge : list V -> V).
  Lemma gather_app es ex (v1 v2 : list V) nids : List.length v1 = List.length es -> (forall e, In e nids -> In e es) -> gather eqk (es ++ ex) (v1 ++ v2) nids = gather eqk es v1 nids.
  Proof.
    intros L H. unfold gather. f_equal. apply map_ext_in. intros e He. assert (I := H e He). rewrite (index_app eqk_ok _ I). assert (B := index_lt eqk_ok I). rewrite skipn_app, firstn_app. replace (1 - List.length (skipn (index_of eqk e es) v1)) with 0 by (rewrite skipn_length; lia). cbn [firstn]. now rewrite app_nil_r.
  Qed.
  Lemma scatter_app es ex (v1 v2 : list V) nids o : List.length v1 = List.length es -> List.length v2 = List.length ex -> NoDup (es ++ ex) -> (forall e, In e nids -> In e es) -> scatter eqk merge (es ++ ex) (v1 ++ v2) nids o = scatter eqk merge es v1 nids o ++ v2.
  Proof.
    intros L L2 N H. unfold scatter. rewrite combine_app_ by now symmetry. rewrite map_app. f_equal. assert (D : forall e, In e ex -> ~ In e nids). { intros e He I. apply H in I. clear -N He I. induction es as [|x es0 IH]; [exact I|]. cbn in N. inversion N as [|? ? Nx N']; subst. destruct I as [-> | I]; [apply Nx, in_or_app; now right | now apply IH]. }
    clear -L2 D eqk_ok. revert v2 L2. induction ex as [|e ex IH]; intros [|v v2] L; try discriminate; [reflexivity|]. cbn [combine map]. rewrite IH; [|intros; apply D; now right | cbn in L; lia]. f_equal.
    assert (E : forall o, map snd (filter (fun p => eqk (fst p) e) (combine nids o)) = @nil V). { specialize (D e (or_introl eq_refl)). clear -D eqk_ok. induction nids as [|x nids IH]; intros [|y o]; try reflexivity. cbn [combine filter fst]. destruct (eqk x e) eqn:E; [apply eqk_ok in E; subst; exfalso; apply D; now left|]. apply IH. intros I. apply D. now right. }
    now rewrite E.
  Qed.
  Lemma stir_app es ex (v1 v2 : list V) x : List.length v1 = List.length es -> List.length v2 = List.length ex -> NoDup (es ++ ex) -> (forall e, In e (snd x) -> In e es) -> stir eqk bsem merge (es ++ ex) (v1 ++ v2) x = stir eqk bsem merge es v1 x ++ v2.
  Proof. intros. unfold stir. now rewrite gather_app, scatter_app. Qed.
End Stir.
Definition good (r : result) : Prop := let '(d, ns, ids, _) := r in typed d (repeat a_n (List.length ids)) (repeat a_n (List.length ids)) /\ NoDup ids /\ List.length ns = List.length ids.
Lemma joined_ext es rs : exists ex, joined_slots es rs = es ++ ex.
Proof. revert es. induction rs as [|[[[d ns] ids] c] rs IH]; intros es; [exists []; cbn; now rewrite app_nil_r|]. cbn [joined_slots]. destruct (IH (es ++ news opt_eqb (map fst es) (combine ids ns))) as [ex ->]. rewrite <- app_assoc. eauto. Qed.
Lemma joined_nodup es rs : NoDup (map fst es) -> NoDup (map fst (joined_slots es rs)).
Proof. revert es. induction rs as [|[[[d ns] ids] c] rs IH]; intros es N; [exact N|]. cbn [joined_slots]. apply IH. rewrite map_app. now apply (news_nodup oZ_ok). Qed.
Section Loop.
  Variables (pruned : list Z) (fol : bool).
  Fixpoint sand_go (cs : list node) (st : sstate) : res sstate :=
    match cs with
    | [] => Ok st
    | c :: cs' => do r <- sand_rec pruned fol c (snd st); do st' <- sand_child st (n_typ c) r; sand_go cs' st'
    end.
  Definition works (y : diagram) (es : list (option Z)) (x : diagram * list (option Z)) : Prop := small (List.length es) y /\
    forall V (bsem : box -> list V -> list V) merge, reading bsem merge -> forall vs, List.length vs = List.length es -> drun bsem (widen (List.length es) y) vs = stir opt_eqb bsem merge es vs x.
  Lemma works_widen y es ex x : typed y (repeat a_n (List.length es)) (repeat a_n (List.length es)) -> NoDup (es ++ ex) -> (forall e, In e (snd x) -> In e es) ->
    (forall V (bsem : box -> list V -> list V) merge, reading bsem merge -> forall vs, List.length vs = List.length es -> drun bsem y vs = stir opt_eqb bsem merge es vs x) -> works y (es ++ ex) x.
  Proof.
    intros T N Sub H. split; [exists (List.length es); split; [rewrite app_length; lia | exact T]|]. intros V bsem merge R vs L. rewrite app_length in L. destruct (@cut V vs (List.length es)) as (v1 & v2 & -> & L1); [lia|]. rewrite app_length in L. unfold widen. destruct T as (W & D & C). rewrite C, repeat_length, app_length.
    rewrite (drun_tensor R W (wf_id _)); [| now rewrite D, repeat_length | cbn; rewrite nn_len; lia]. rewrite drun_id, (H V bsem merge R v1 L1). symmetry. apply (stir_app oZ_ok); auto. lia.
  Qed.
  Lemma loop_ok cs : Forall (fun c => forall prev, exists r, sand_rec pruned fol c prev = Ok r /\ good r) cs -> forall subs es cur, NoDup (map fst es) -> exists rs cur' ys, parts (sand_rec pruned fol) cur cs rs cur' /\ Forall good rs /\
    let es' := joined_slots es rs in sand_go cs (subs, map snd es, map fst es, dict_of (map fst es), cur) = Ok (subs ++ ys, map snd es', map fst es', dict_of (map fst es'), cur') /\
    Forall2 (fun y x => works y (map fst es') x) (filter has_layers ys) (shown_parts es rs).
  Proof.
    induction 1 as [|c cs Hc _ IH]; intros subs es cur N; [exists [], cur, []; repeat split; [constructor | constructor | cbn; now rewrite app_nil_r | constructor]|].
    destruct (Hc cur) as ([[[cd cnouns] cinds] cand] & Er & (T & Nc & Lc)). destruct (@sand_child_ok (map fst es) subs (map snd es) cur (n_typ c) cd cnouns cinds cand N T Nc Lc) as (y & Ey & Ty & Hy & Sy).
    set (F := news oZ_eqb (map fst es) (combine cinds cnouns)) in *. rewrite <- !map_app in *. set (es1 := es ++ F) in *. assert (N1 : NoDup (map fst es1)) by (unfold es1; rewrite map_app; now apply (news_nodup oZ_ok)).
    destruct (IH (subs ++ [y]) es1 (if ty_eqb (n_typ c) NOUN then cand else cur) N1) as (rs & cur' & ys & P & G & E & W). exists ((cd, cnouns, cinds, cand) :: rs), cur', (y :: ys). split; [econstructor; [exact Er | exact P]|]. split; [constructor; [repeat split; auto; apply T | exact G]|].
    cbv zeta. cbn [joined_slots]. change (news opt_eqb (map fst es) (combine cinds cnouns)) with F. change (es ++ F) with es1. split.
    - cbn [sand_go snd]. rewrite Er. cbn [bind]. fold NOUN in Ey. rewrite Ey. cbn [bind]. rewrite E. now rewrite <- app_assoc.
    - cbn [shown_parts filter]. change (news opt_eqb (map fst es) (combine cinds cnouns)) with F. change (es ++ F) with es1. destruct (joined_ext es1 rs) as (ex & Ex).
      assert (Wy : works y (map fst (joined_slots es1 rs)) (cd, cinds)).
      { rewrite Ex, map_app. apply works_widen; [exact Ty | rewrite <- map_app, <- Ex; now apply joined_nodup | | exact Sy]. cbn [snd]. intros e He. unfold es1. rewrite map_app. apply (news_all oZ_ok). now rewrite map_fst_combine. }
      rewrite Hy. unfold has_layers at 1. destruct (layers cd); cbn [null negb orb app]; [|constructor; [exact Wy | exact W]]. change oZ_eqb with opt_eqb. destruct (in_place opt_eqb (map fst es1) cinds); cbn [negb app]; [exact W | constructor; [exact Wy | exact W]].
  Qed.
  (** ** a word *)
  Definition given (t : ty) (prev : option Z) : list (option Z * box) := if has_noun_arg t && (match prev with Some _ => true | None => null pruned end) then [(prev, Box EmptyString [] NOUN 0)] else [].
  Lemma given_nodup t prev : NoDup (map fst (given t prev)).
  Proof. unfold given. destruct (has_noun_arg t && _); [repeat constructor; auto | constructor]. Qed.
  Lemma sand_rec_eq w i t p cs prev : sand_rec pruned fol (Node w i t p cs) prev =
    if ty_eqb t NOUN && null cs && memZ i pruned then Ok (id [], [], [], prev)
    else if ty_eqb t NOUN && null cs then Ok (id NOUN, [Box w [] NOUN 0], [Some i], Some i)
    else do (st : sstate) <- sand_go cs ([], map snd (given t prev), map fst (given t prev), dict_of (map fst (given t prev)), prev);
      let '(subs, nouns, inds, dict, cur) := st in if null dict then Ok (id [], [], [], cur) else do big <- sand_build w fol (filter has_layers subs) (List.length dict); Ok (big, nouns, inds, cur).
  Proof. unfold given. destruct (has_noun_arg t && _) eqn:E; cbn [sand_rec]; rewrite E; reflexivity. Qed.
  Lemma word_ok w i t p cs prev : Forall (fun c => forall prev, exists r, sand_rec pruned fol c prev = Ok r /\ good r) cs -> bare_noun (Node w i t p cs) = false ->
    exists rs cur, parts (sand_rec pruned fol) prev cs rs cur /\ Forall good rs /\ let es := joined_slots (given t prev) rs in let ps := shown_parts (given t prev) rs in
      match es with
      | [] => sand_rec pruned fol (Node w i t p cs) prev = Ok (id [], [], [], cur)
      | _ => exists d, sand_rec pruned fol (Node w i t p cs) prev = Ok (d, map snd es, map fst es, cur) /\ typed d (repeat a_n (List.length es)) (repeat a_n (List.length es)) /\
          forall V (bsem : box -> list V -> list V) merge, reading bsem merge -> forall vs, List.length vs = List.length es -> drun bsem d vs = sandwich_run bsem merge w fol (map fst es) ps vs
      end.
  Proof.
    intros H B. rewrite sand_rec_eq. rewrite bare_eq in B. rewrite B. cbn [andb]. assert (N := given_nodup t prev).
    destruct (@loop_ok cs H [] (given t prev) prev N) as (rs & cur & ys & P & G & E & W). cbv zeta in E. rewrite E. exists rs, cur. split; [exact P|]. split; [exact G|]. cbv zeta. cbn [bind app]. assert (N' := joined_nodup rs N). set (es := joined_slots (given t prev) rs) in *. set (ps := shown_parts (given t prev) rs) in *.
    assert (Nd : null (dict_of (map fst es)) = null es) by (unfold dict_of; destruct es; reflexivity). rewrite Nd. destruct es as [|e0 es0] eqn:Ees; [reflexivity|]. rewrite <- Ees in *. assert (Nn : null es = false) by (rewrite Ees; reflexivity). rewrite Nn. rewrite dict_len, map_length in *.
    assert (Sm : Forall (small (List.length es)) (filter has_layers ys)). { clear -W. induction W as [|y x ys' ps' Hy _ IH]; [constructor|]. constructor; [destruct Hy as [Hy _]; now rewrite map_length in Hy | exact IH]. }
    destruct (build_ok w fol Sm) as (d & Ed & Td & Sd). exists d. rewrite Ed. cbn [bind]. split; [reflexivity|]. split; [exact Td|]. intros V bsem merge R vs L. rewrite (Sd V bsem merge R vs L). unfold sandwich_run. cbv zeta. rewrite map_length.
    assert (Lf := Forall2_length W). rewrite Lf. assert (Mt : (match filter has_layers ys with [] => "" | _ => if fol then "$_{top}$" else "" end)%string = (match ps with [] => "" | _ => if fol then "$_{top}$" else "" end)%string) by (destruct W; reflexivity). rewrite Mt. clear Mt.
    assert (LR : forall v sfx, List.length (bsem (big w (List.length es) sfx) v) = List.length es \/ List.length v <> List.length es). { intros v sfx. destruct (Nat.eq_dec (List.length v) (List.length es)) as [Hv|]; [left|now right]. rewrite (r_arity R); cbn; unfold nouns_ty; now rewrite repeat_length. }
    set (v0 := bsem (Box _ _ _ 0) vs). change (bsem (big w (List.length es) (match ps with [] => "" | _ => if fol then "$_{top}$" else "" end)%string) vs) with v0.
    assert (L0 : List.length v0 = List.length es). { destruct (LR vs (match ps with [] => "" | _ => if fol then "$_{top}$" else "" end)%string) as [X | X]; [exact X | congruence]. }
    clearbody v0. clear -W LR L0 R. revert v0 L0. generalize (suffixes fol (List.length ps)). induction W as [|y x ys0 ps0 [Sy Hy] _ IH]; intros [|sfx l] v0 L0; try reflexivity. cbn [combine fold_left]. rewrite map_length in Hy. rewrite (Hy V bsem merge R v0 L0).
    assert (L1 : List.length (stir opt_eqb bsem merge (map fst es) v0 x) = List.length es) by (unfold stir, scatter; rewrite map_length, combine_length, map_length; lia).
    apply IH. destruct (LR (stir opt_eqb bsem merge (map fst es) v0 x) sfx) as [X | X]; [exact X | congruence].
  Qed.
  Lemma sand_good n : forall prev, exists r, sand_rec pruned fol n prev = Ok r /\ good r.
  Proof.
    induction n as [w i t p cs IH] using node_rec. intros prev. destruct (bare_noun (Node w i t p cs)) eqn:B.
    - rewrite bare_eq in B. cbn [sand_rec]. rewrite B. cbn [andb]. destruct (memZ i pruned); eexists; (split; [reflexivity|]); (split; [repeat split|]); (split; [|reflexivity]); [constructor | repeat constructor; auto].
    - destruct (@word_ok w i t p cs prev IH B) as (rs & cur & P & G & E). cbv zeta in E. assert (N := given_nodup t prev). assert (N' := joined_nodup rs N). destruct (joined_slots (given t prev) rs) as [|e es] eqn:Ees.
      + eexists. split; [exact E|]. repeat split; constructor.
      + rewrite <- Ees in *. destruct E as (d & E & T & _). eexists. split; [exact E|]. repeat split; rewrite ?map_length; auto; apply T.
  Qed.
End Loop.
