(** Generic diagrams (proofs only). *)
From Coq Require Import Sorting.Sorted.
From Verif Require Import PyBase PyFacts TyModel DiagModel DiagFacts DiagPerm GDiag GDiagSpec.
Set Implicit Arguments. Unset Strict Implicit.

Section G.
  Variables (A B : Type) (aeqb : A -> A -> bool) (bd bc : B -> list A).
  Hypothesis aeqb_ok : forall a b, aeqb a b = true <-> a = b.
  Notation gchain := (gchain bd bc). Notation gwf := (gwf bd bc). Notation gtyped := (gtyped bd bc).
  Notation gdiag := (gdiag A B). Notation gbox := (gbox bd bc). Notation gthen := (gthen aeqb). Notation gthen_at := (gthen_at aeqb).

  Lemma gteqb_ok s : forall t, gteqb aeqb s t = true <-> s = t.
  Proof.
    induction s as [|a s IH]; intros [|b t]; cbn; try (split; congruence). rewrite andb_true_iff, aeqb_ok, IH. split; [intros [-> ->]; auto|intros [= -> ->]; auto].
  Qed.
  Lemma gteqb_refl s : gteqb aeqb s s = true. Proof. now apply gteqb_ok. Qed.
  Lemma gchain_app ls ks d c : gchain d (ls ++ ks) c <-> exists m, gchain d ls m /\ gchain m ks c.
  Proof.
    revert d; induction ls as [|[[l b] r] ls IH]; intro d; cbn.
    - split; [intro H; exists d; auto|intros (m & -> & H); auto].
    - rewrite IH. firstorder.
  Qed.
  Lemma gchain_ext l r ls : forall d c, gchain d ls c -> gchain (l ++ d ++ r) (map (gext l r) ls) (l ++ c ++ r).
  Proof.
    induction ls as [|[[l0 b] r0] ls IH]; intros d c; cbn; [intros ->; auto|]. intros [-> H]. unfold gl_left, gl_box, gl_right. cbn [fst snd]. split; [now rewrite <- !app_assoc|].
    replace ((l ++ l0) ++ bc b ++ r0 ++ r) with (l ++ (l0 ++ bc b ++ r0) ++ r) by now rewrite <- !app_assoc. now apply IH.
  Qed.
  Lemma gtyped_id t : gtyped (gid t) t t. Proof. repeat split. Qed.
  Lemma gtyped_box b : gtyped (gbox b) (bd b) (bc b).
  Proof. repeat split; cbn; now rewrite ?app_nil_r. Qed.
  Lemma gtyped_box' b s t : bd b = s -> bc b = t -> gtyped (gbox b) s t.
  Proof. intros <- <-. apply gtyped_box. Qed.
  Lemma gtyped_tensor a b s t s' t' : gtyped a s t -> gtyped b s' t' -> gtyped (gtensor a b) (s ++ s') (t ++ t').
  Proof.
    intros (W & <- & <-) (W' & <- & <-). split; [|split; auto]. unfold gtensor, GDiagSpec.gwf in *. cbn [glayers gdom gcod].
    apply gchain_app. exists (gcod a ++ gdom b). split.
    - apply (gchain_ext [] (gdom b)) in W. exact W.
    - apply (gchain_ext (gcod a) []) in W'. rewrite !app_nil_r in W'. exact W'.
  Qed.
  Lemma gthen_eq (a b : gdiag) : gcod a = gdom b -> gthen a b = Ok (GD (gdom a) (gcod b) (glayers a ++ glayers b)).
  Proof. intro E. unfold GDiag.gthen. now rewrite E, gteqb_refl. Qed.
  Lemma gthen_inv (a b c : gdiag) : gthen a b = Ok c -> gcod a = gdom b /\ c = GD (gdom a) (gcod b) (glayers a ++ glayers b).
  Proof. unfold GDiag.gthen. destruct (gteqb aeqb (gdom b) (gcod a)) eqn:E; [|discriminate]. apply gteqb_ok in E. intros [= <-]. auto. Qed.
  Lemma gtyped_then a b r s t : gtyped a r s -> gtyped b s t -> exists c, gthen a b = Ok c /\ gtyped c r t /\ glayers c = glayers a ++ glayers b.
  Proof.
    intros (W & <- & <-) (W' & E & <-). rewrite gthen_eq by auto. eexists. split; [reflexivity|]. split; [|reflexivity]. split; [|split; auto].
    unfold GDiagSpec.gwf in *. cbn. apply gchain_app. exists (gcod a). split; auto. now rewrite <- E.
  Qed.
  Lemma gwf_then a b c : gwf a -> gwf b -> gthen a b = Ok c -> gwf c.
  Proof.
    intros W W' E. apply gthen_inv in E. destruct E as [E ->]. unfold GDiagSpec.gwf in *. cbn. apply gchain_app. exists (gcod a). split; auto. now rewrite E.
  Qed.
  Lemma gext_nil x : gext [] [] x = x :> glayer A B. Proof. destruct x as [[l b] r]. unfold gext. cbn. now rewrite app_nil_r. Qed.
  Lemma gthen_at_ok (d x : gdiag) l r i : gcod d = l ++ gdom x ++ r -> i = Z.of_nat (List.length l) ->
    gthen_at d x i = Ok (GD (gdom d) (l ++ gcod x ++ r) (glayers d ++ map (gext l r) (glayers x))).
  Proof.
    intros E ->. unfold GDiag.gthen_at. rewrite E. rewrite py_slice_stop_pos by lia.
    replace (Z.of_nat (List.length l) + Z.of_nat (List.length (gdom x)))%Z with (Z.of_nat (List.length l + List.length (gdom x))) by lia.
    rewrite py_slice_start_pos by lia. rewrite !Nat2Z.id. rewrite firstn_app, firstn_all, Nat.sub_diag. cbn [firstn]. rewrite app_nil_r.
    rewrite app_assoc, skipn_app, skipn_all2 by (rewrite app_length; lia). rewrite app_length, Nat.sub_diag. cbn [skipn app].
    rewrite gthen_eq; cbn [gtensor gid gdom gcod glayers map app]; [|now rewrite E, <- app_assoc]. rewrite !app_nil_r, <- app_assoc. f_equal. f_equal. f_equal. rewrite map_map. apply map_ext.
    intros [[a b] c]. unfold gext, gl_left, gl_box, gl_right. cbn [fst snd]. now rewrite app_nil_r.
  Qed.
  Lemma gtyped_at d x r l s t u i : gtyped d r (l ++ s ++ u) -> gtyped x s t -> i = Z.of_nat (List.length l) ->
    exists c, gthen_at d x i = Ok c /\ gtyped c r (l ++ t ++ u) /\ glayers c = glayers d ++ map (gext l u) (glayers x).
  Proof.
    intros (W & <- & E) (W' & <- & <-) Ei. rewrite (@gthen_at_ok d x l u i E Ei). eexists. split; [reflexivity|]. split; [|reflexivity]. split; [|split; auto].
    unfold GDiagSpec.gwf in *. cbn. apply gchain_app. exists (gcod d). split; auto. rewrite E. now apply gchain_ext.
  Qed.
  Lemma gchain_fun ls : forall d c c', gchain d ls c -> gchain d ls c' -> c = c'.
  Proof. induction ls as [|[[l b] r] ls IH]; cbn; intros d c c' H H'; [congruence|]. destruct H, H'. eauto. Qed.
  Lemma gwf_at d x i c : gwf d -> gwf x -> gthen_at d x i = Ok c -> gwf c.
  Proof.
    intros W W' E. unfold GDiag.gthen_at in E. eapply gwf_then; [exact W| |exact E].
    apply (@gtyped_tensor _ _ _ _ _ _ (@gtyped_tensor _ _ _ _ _ _ (gtyped_id _) (conj W' (conj eq_refl eq_refl))) (gtyped_id _)).
  Qed.
  Lemma gboxes_tensor (a b : gdiag) : gboxes (gtensor a b) = gboxes a ++ gboxes b.
  Proof. unfold gboxes, gtensor. cbn. rewrite map_app, !map_map. reflexivity. Qed.
  Lemma gtyped_tensor_list ds : forall a s t ss ts, gtyped a s t -> Forall2 (fun d st => gtyped d (fst st) (snd st)) ds (combine ss ts) -> List.length ss = List.length ts ->
    gtyped (gtensor_list a ds) (s ++ List.concat ss) (t ++ List.concat ts).
  Proof.
    induction ds as [|d ds IH]; intros a s t ss ts Ha F L; cbn.
    - destruct ss as [|x ss], ts as [|y ts]; try discriminate; [cbn; now rewrite !app_nil_r|inversion F].
    - destruct ss as [|x ss], ts as [|y ts]; try discriminate; [inversion F|]. cbn in F. inversion F as [|? ? ? ? F1 F2]; subst. cbn [fst snd] in F1. cbn [List.concat].
      rewrite !app_assoc. apply IH; auto. now apply gtyped_tensor.
  Qed.
  Lemma gtensor_assoc (a b c : gdiag) : gtensor (gtensor a b) c = gtensor a (gtensor b c).
  Proof.
    unfold gtensor. cbn. rewrite !map_app, !map_map, <- !app_assoc. f_equal. f_equal; [|f_equal].
    - apply map_ext. intros [[x y] z]. unfold gext. cbn. now rewrite <- app_assoc.
    - apply map_ext. intros [[x y] z]. unfold gext, gl_left, gl_box, gl_right. cbn. now rewrite !app_nil_r.
    - apply map_ext. intros [[x y] z]. unfold gext, gl_left, gl_box, gl_right. cbn. now rewrite !app_nil_r, app_assoc.
  Qed.
  Lemma gtensor_id_l (d : gdiag) : gtensor (gid []) d = d.
  Proof. destruct d as [a b ls]. unfold gtensor. cbn. f_equal. rewrite <- (map_id ls) at 2. apply map_ext. apply gext_nil. Qed.
  Lemma gtensor_id_r (d : gdiag) : gtensor d (gid []) = d.
  Proof. destruct d as [a b ls]. unfold gtensor. cbn. rewrite !app_nil_r. f_equal. rewrite <- (map_id ls) at 2. apply map_ext. apply gext_nil. Qed.
  Lemma gtensor_list_cons d ds : forall a : gdiag, gtensor_list a (d :: ds) = gtensor a (gtensor_list d ds).
  Proof.
    revert d. induction ds as [|x ds IH]; intros d a; cbn [gtensor_list fold_left]; auto.
    change (fold_left (gtensor (B:=B)) ds (gtensor (gtensor a d) x)) with (gtensor_list (gtensor a d) (x :: ds)). rewrite IH.
    change (fold_left (gtensor (B:=B)) ds (gtensor d x)) with (gtensor_list d (x :: ds)). rewrite IH. now rewrite gtensor_assoc.
  Qed.
  Lemma gtensor_list_id (d : gdiag) ds : gtensor_list (gid []) (d :: ds) = gtensor d (gtensor_list (gid []) ds).
  Proof. rewrite gtensor_list_cons, gtensor_id_l. destruct ds as [|x ds]; [cbn; now rewrite gtensor_id_r|]. rewrite !gtensor_list_cons. now rewrite gtensor_id_l. Qed.
  Lemma gtensor_list_from (a : gdiag) ds : gtensor_list a ds = gtensor a (gtensor_list (gid []) ds).
  Proof. destruct ds as [|d ds]; [cbn; now rewrite gtensor_id_r|]. rewrite !gtensor_list_cons. now rewrite gtensor_id_l. Qed.

  (** ** dagger *)
  Section Dagger.
    Variable bdag : B -> B.
    Hypothesis dag_dom : forall b, bd (bdag b) = bc b. Hypothesis dag_cod : forall b, bc (bdag b) = bd b.
    Lemma gchain_dag ls : forall d c, gchain d ls c -> gchain c (map (fun x => (gl_left x, bdag (gl_box x), gl_right x)) (rev ls)) d.
    Proof.
      induction ls as [|[[l b] r] ls IH]; intros d c; cbn; [auto|]. intros [-> H]. rewrite map_app. apply gchain_app. exists (l ++ bc b ++ r). split; [now apply IH|].
      cbn. now rewrite dag_dom, dag_cod.
    Qed.
    Lemma gtyped_dagger d s t : gtyped d s t -> gtyped (gdagger bdag d) t s.
    Proof.
      intros (W & <- & <-). unfold gdagger. destruct d as [a c ls]. cbn [glayers gdom gcod] in *. destruct ls as [|x ls]; [|split; [|split; auto]].
      - unfold GDiagSpec.gwf in W. cbn in W. subst. repeat split.
      - unfold GDiagSpec.gwf in *. cbn [glayers gdom gcod] in *. now apply gchain_dag.
    Qed.
    Lemma gdagger_layers (d : gdiag) : glayers (gdagger bdag d) = map (fun x => (gl_left x, bdag (gl_box x), gl_right x)) (rev (glayers d)).
    Proof. unfold gdagger. destruct d as [a c [|x ls]]; reflexivity. Qed.
  End Dagger.

  (** ** routing *)
  Variables (sw : A -> A -> B) (isw : B -> bool) (a0 : A).
  Hypothesis sw_isw : forall a b, isw (sw a b) = true.
  Hypothesis sw_dom : forall a b, bd (sw a b) = [a; b]. Hypothesis sw_cod : forall a b, bc (sw a b) = [b; a].
  Definition groute (d : gdiag) (t : list A) (L : list nat) : Prop :=
    gwf d /\ gdom d = t /\ gcod d = map (fun i => nth i t a0) L /\
    forall X (dx : X) v, List.length v = List.length t -> grun isw (glayers d) v = Some (map (fun i => nth i v dx) L).
  Lemma groute_id t : groute (gid t) t (seq 0 (List.length t)).
  Proof.
    split; [apply gtyped_id|]. repeat split; cbn.
    - now rewrite map_nth_seq.
    - intros X dx v E. rewrite <- E. now rewrite map_nth_seq.
  Qed.
  Lemma grun_app X (ls ks : list (list A * B * list A)) (v : list X) : grun isw (ls ++ ks) v = match grun isw ls v with Some v' => grun isw ks v' | None => None end.
  Proof.
    revert v; induction ls as [|[[l b] r] ls IH]; intro v; cbn; auto. destruct (isw b); auto. destruct (skipn _ v) as [|x [|y w]]; auto.
  Qed.
  Lemma groute_swap d t L i j C a b k :
    groute d t (L ++ i :: j :: C) -> a = nth i t a0 -> b = nth j t a0 -> k = Z.of_nat (List.length L) ->
    exists d', gthen_at d (gbox (sw a b)) k = Ok d' /\ groute d' t (L ++ j :: i :: C).
  Proof.
    intros (W & D & E & R) -> -> ->. rewrite map_app in E. cbn [map] in E. set (f := fun i => nth i t a0) in *.
    assert (H : gthen_at d (gbox (sw (f i) (f j))) (Z.of_nat (List.length L)) =
      Ok (GD (gdom d) (map f L ++ [f j; f i] ++ map f C) (glayers d ++ [(map f L, sw (f i) (f j), map f C)]))).
    { rewrite (@gthen_at_ok d (gbox (sw (f i) (f j))) (map f L) (map f C)).
      - unfold GDiag.gbox. cbn. rewrite sw_cod. unfold gext. cbn. now rewrite app_nil_r.
      - unfold GDiag.gbox. cbn. now rewrite sw_dom.
      - now rewrite map_length. }
    eexists. split; [exact H|]. split; [|split; [exact D|split]].
    - eapply gwf_at; [exact W| |exact H]. apply gtyped_box.
    - cbn. now rewrite map_app.
    - intros X dx v Hv. cbn [glayers]. rewrite grun_app. rewrite (R X dx v Hv). cbn. rewrite sw_isw.
      rewrite map_length, !map_app. cbn [map].
      rewrite firstn_app, skipn_app, !map_length, Nat.sub_diag, firstn_all2, skipn_all2 by (rewrite map_length; lia).
      cbn. now rewrite app_nil_r.
  Qed.
  Lemma gswap_step_eq (d : gdiag) L a b C : gcod d = L ++ a :: b :: C -> gswap_step aeqb bd bc sw d (List.length L) = gthen_at d (gbox (sw a b)) (Z.of_nat (List.length L)).
  Proof.
    intro E. unfold gswap_step, GDiag.gthen_at. rewrite E. rewrite py_slice_stop_pos, py_slice_start_pos by (cbn; lia).
    rewrite Nat2Z.id. rewrite skipn_app, skipn_all, Nat.sub_diag. cbn [skipn app firstn]. f_equal. f_equal. f_equal. f_equal. unfold GDiag.gbox. cbn [gdom]. rewrite sw_dom. cbn; lia.
  Qed.
  Lemma groute_move t x : forall Bs L C d, groute d t (L ++ Bs ++ x :: C) ->
    exists d', foldM (gswap_step aeqb bd bc sw) (rev (seq (List.length L) (List.length Bs))) d = Ok d' /\ groute d' t (L ++ x :: Bs ++ C).
  Proof.
    induction Bs as [|b Bs IH] using rev_ind; intros L C d R; cbn in *; [eauto|].
    rewrite app_length, Nat.add_1_r, seq_S, rev_app_distr. cbn [rev app].
    rewrite <- app_assoc in R. cbn [app] in R. rewrite app_assoc in R. cbn [foldM]. rewrite <- app_length.
    pose proof R as (_ & _ & E & _). rewrite map_app in E. cbn [map] in E.
    rewrite <- (map_length (fun i => nth i t a0) (L ++ Bs)). erewrite gswap_step_eq by exact E. rewrite map_length.
    destruct (groute_swap R eq_refl eq_refl eq_refl) as (d1 & -> & R1). cbn [bind].
    rewrite <- app_assoc in R1. destruct (IH L (b :: C) d1 R1) as (d2 & H2 & R2). exists d2. split; [exact H2|]. now rewrite <- app_assoc.
  Qed.
  Definition gperm_inv (t : list A) (p : list nat) (k : nat) (st : gdiag * list nat) : Prop :=
    exists rem, groute (fst st) t (firstn k p ++ rem) /\ StronglySorted lt rem /\ Permutation (skipn k p) rem /\
      forall R1 i R2, rem = R1 ++ i :: R2 -> nth_error (snd st) i = Some (k + List.length R1).
  Lemma gperm_step_inv t p k st : Permutation p (seq 0 (List.length t)) -> k < List.length t ->
    gperm_inv t p k st -> exists st', gperm_step aeqb bd bc sw p st k = Ok st' /\ gperm_inv t p (S k) st'.
  Proof.
    destruct st as [d w]. intros P Hk (rem & R & So & Pr & W). cbn [fst snd] in *.
    assert (Lp : List.length p = List.length t) by now rewrite (Permutation_length P), seq_length.
    unfold gperm_step. destruct (nth_error p k) as [po|] eqn:Epo. 2:{ apply nth_error_None in Epo. lia. }
    rewrite (skipn_nth_error Epo) in Pr. assert (Hin : In po rem) by (rewrite <- Pr; now left).
    destruct (in_split _ _ Hin) as (R1 & R2 & ->). rewrite (W R1 po R2 eq_refl).
    destruct (Nat.ltb_spec (k + List.length R1) k); [lia|]. replace (k + List.length R1 - k) with (List.length R1) by lia.
    assert (Lk : List.length (firstn k p) = k) by (rewrite firstn_length; lia).
    destruct (@groute_move t po R1 (firstn k p) R2 d R) as (d' & E & R'). rewrite Lk in E. rewrite E. cbn [bind]. eexists. split; [reflexivity|].
    apply sorted_app_cons in So as (S1 & S2 & S3). exists (R1 ++ R2). cbn [fst snd]. split; [|split; [exact S1|split]].
    - rewrite (firstn_nth_error Epo), <- app_assoc. exact R'.
    - eapply Permutation_cons_app_inv. exact Pr.
    - intros Q1 i Q2 EQ. rewrite nth_error_bump. destruct (app_mid_split EQ) as [(T & -> & ->)|(T & -> & ->)].
      + assert (i < po) by (apply S2; rewrite in_app_iff; cbn; auto). destruct (Nat.ltb_spec i po); [|lia].
        rewrite (W Q1 i (T ++ po :: R2)) by now rewrite <- app_assoc. cbn. f_equal; lia.
      + assert (po < i) by (apply S3; rewrite in_app_iff; cbn; auto). destruct (Nat.ltb_spec i po); [lia|].
        rewrite (W (R1 ++ po :: T) i Q2) by now rewrite <- app_assoc. rewrite !app_length. cbn. f_equal; lia.
  Qed.
  Lemma gperm_loop t p m : forall k st, Permutation p (seq 0 (List.length t)) -> k + m <= List.length t ->
    gperm_inv t p k st -> exists st', foldM (gperm_step aeqb bd bc sw p) (seq k m) st = Ok st' /\ gperm_inv t p (k + m) st'.
  Proof.
    induction m as [|m IH]; intros k st P Hk I; cbn [seq foldM].
    - exists st. now rewrite Nat.add_0_r.
    - destruct (@gperm_step_inv t p k st P) as (st1 & -> & I1); [lia|auto|]. cbn [bind].
      destruct (IH (S k) st1 P) as (st2 & E & I2); [lia|auto|]. exists st2. now rewrite <- Nat.add_succ_comm.
  Qed.
  Lemma gpermutation_route t p : Permutation p (seq 0 (List.length t)) -> exists d, gpermutation aeqb bd bc sw t p = Ok d /\ groute d t p.
  Proof.
    intro P. unfold gpermutation. rewrite (proj2 (perm_valid_spec p _) P). cbn [negb].
    destruct (@gperm_loop t p (List.length t - 1) 0 (gid t, seq 0 (List.length t)) P) as (st & E & I).
    - lia.
    - exists (seq 0 (List.length t)). cbn [fst snd firstn skipn app]. split; [apply groute_id|].
      split; [apply seq_sorted|]. split; [exact P|]. intros R1 i R2 H. apply seq_mid in H as Hi.
      assert (Hlt : i < List.length t). { assert (In i (seq 0 (List.length t))) by (rewrite H, in_app_iff; cbn; auto). apply in_seq in H0. lia. }
      rewrite (nth_error_nth' _ 0) by now rewrite seq_length. rewrite seq_nth by auto. f_equal; lia.
    - rewrite E. cbn [rmap]. eexists. split; [reflexivity|]. destruct I as (rem & R & So & Pr & W). cbn [Nat.add] in *.
      assert (Lp : List.length p = List.length t) by now rewrite (Permutation_length P), seq_length.
      assert (Hr : rem = skipn (List.length t - 1) p).
      { apply Permutation_length in Pr as Lr. rewrite skipn_length in Lr. destruct (skipn (List.length t - 1) p) as [|x [|y l]] eqn:Es.
        - apply Permutation_nil in Pr. now subst.
        - now apply Permutation_length_1_inv in Pr.
        - assert (List.length (x :: y :: l) <= 1) by (rewrite <- Es, skipn_length; lia). cbn in *; lia. }
      rewrite Hr, firstn_skipn in R. exact R.
  Qed.
  (** block swap *)
  Lemma groute_move_at t x : forall Bs L C d, groute d t (L ++ Bs ++ x :: C) ->
    exists d', foldM (fun d '(i, a) => gthen_at d (gbox (sw a (nth x t a0))) (Z.of_nat (List.length L + i))) (rev (enum 0 (map (fun i => nth i t a0) Bs))) d = Ok d'
               /\ groute d' t (L ++ x :: Bs ++ C).
  Proof.
    induction Bs as [|b Bs IH] using rev_ind; intros L C d R; cbn in *; [eauto|].
    rewrite map_app, enum_app, rev_app_distr. cbn [map enum rev app foldM].
    rewrite <- app_assoc in R. cbn [app] in R. rewrite app_assoc in R.
    destruct (groute_swap R eq_refl eq_refl eq_refl) as (d1 & E & R1). rewrite app_length in E. rewrite map_length. cbn [Nat.add]. rewrite E. cbn [bind].
    rewrite <- app_assoc in R1. destruct (IH L (b :: C) d1 R1) as (d2 & H2 & R2). exists d2. split; [exact H2|]. now rewrite <- app_assoc.
  Qed.
  Lemma gswap_loop l r : forall post pre d, r = pre ++ post ->
    groute d (l ++ r) (seq (List.length l) (List.length pre) ++ seq 0 (List.length l) ++ seq (List.length l + List.length pre) (List.length post)) ->
    exists d', foldM (fun d '(start, ob) => foldM (fun d '(i, a) => gthen_at d (gbox (sw a ob)) (Z.of_nat (start + i))) (rev (enum 0 l)) d) (enum (List.length pre) post) d = Ok d'
     /\ groute d' (l ++ r) (seq (List.length l) (List.length r) ++ seq 0 (List.length l)).
  Proof.
    induction post as [|ob post IH]; intros pre d E R; cbn [enum foldM].
    - exists d. split; auto. rewrite app_nil_r in E. subst pre. cbn in R. now rewrite app_nil_r in R.
    - cbn [List.length seq] in R. destruct (groute_move_at R) as (d1 & E1 & R1). rewrite seq_length in E1. rewrite pick_left in E1 by reflexivity.
      assert (Eo : nth (List.length l + List.length pre) (l ++ r) a0 = ob). { rewrite app_nth2_plus, E. rewrite app_nth2, Nat.sub_diag by lia. reflexivity. }
      rewrite Eo in E1. rewrite E1. cbn [bind]. specialize (IH (pre ++ [ob]) d1). rewrite app_length in IH. cbn [List.length] in IH. rewrite Nat.add_1_r in IH. apply IH.
      + now rewrite <- app_assoc.
      + rewrite seq_S, <- app_assoc, Nat.add_succ_r. exact R1.
  Qed.
  Lemma gswap_route l r : exists d, gswap aeqb bd bc sw l r = Ok d /\ groute d (l ++ r) (seq (List.length l) (List.length r) ++ seq 0 (List.length l)).
  Proof.
    assert (G : exists d, foldM (fun d '(start, ob) => foldM (fun d '(i, a) => gthen_at d (gbox (sw a ob)) (Z.of_nat (start + i))) (rev (enum 0 l)) d) (enum 0 r) (gid (l ++ r)) = Ok d
     /\ groute d (l ++ r) (seq (List.length l) (List.length r) ++ seq 0 (List.length l))).
    { apply (@gswap_loop l r r [] (gid (l ++ r))); auto. cbn [List.length seq app]. rewrite Nat.add_0_r.
      replace (seq 0 (List.length l) ++ seq (List.length l) (List.length r)) with (seq 0 (List.length (l ++ r))) by now rewrite app_length, seq_app.
      apply groute_id. }
    unfold gswap. destruct l as [|x [|x' l]]; [exact G| |exact G]. destruct r as [|y [|y' r]]; [exact G| |exact G]. clear G.
    exists (gbox (sw x y)). split; [reflexivity|]. split; [apply gtyped_box|]. unfold GDiag.gbox. cbn. rewrite sw_dom, sw_cod, sw_isw. repeat split.
    intros X dx v Hv. destruct v as [|a [|b [|? ?]]]; try discriminate. reflexivity.
  Qed.
  Lemma gswap_typed l r : exists d, gswap aeqb bd bc sw l r = Ok d /\ gtyped d (l ++ r) (r ++ l).
  Proof.
    destruct (gswap_route l r) as (d & E & W & D & C & _). exists d. split; auto. split; [exact W|split; [exact D|]]. rewrite C, map_app, pick_right, pick_left; auto.
  Qed.
End G.
