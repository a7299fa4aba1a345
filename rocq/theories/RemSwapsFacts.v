(** Removing swaps (proofs only). *)
From Verif Require Import PyBase PyFacts TyModel TyFacts DiagModel DiagSpec DiagFacts DiagMisc BoxEq FunctorModel FunctorSpec FunctorFacts RewModel RewFacts RemCupsModel RemSwapsModel RemSwapsSpec.
Set Implicit Arguments. Unset Strict Implicit.

Definition da : atom := (EmptyString, 0%Z).
Notation at_ := (fun (T : ty) i => nth i T da).

Lemma upd_length A (l : list A) i x : List.length (upd l i x) = List.length l.
Proof. revert i; induction l; destruct i; cbn; auto. Qed.
Lemma upd_nth A (l : list A) i j x d : i < List.length l -> nth j (upd l i x) d = if Nat.eqb i j then x else nth j l d.
Proof. revert i j; induction l as [|y l IH]; cbn; intros i j H; [lia|]. destruct i, j; cbn; auto. apply IH. lia. Qed.
Lemma idx_ok A (l : list A) i d : i < List.length l -> idx l i = Ok (nth i l d).
Proof. intro H. unfold idx. now rewrite (nth_error_nth' l d H). Qed.
Lemma del_slice_app A (a b c : list A) : del_slice (a ++ b ++ c) (List.length a) (List.length a + List.length b) = a ++ c.
Proof.
  unfold del_slice. rewrite firstn_app, firstn_all, Nat.sub_diag, app_nil_r. f_equal.
  rewrite Nat.max_r by lia. rewrite app_assoc, <- app_length. rewrite skipn_app, skipn_all, Nat.sub_diag. reflexivity.
Qed.
Lemma map_eq_app3 A B (f : A -> B) l x y z : map f l = x ++ y ++ z ->
  exists a b c, l = a ++ b ++ c /\ map f a = x /\ map f b = y /\ map f c = z.
Proof.
  intro H. apply map_eq_app in H. destruct H as (a & bc & -> & <- & H). apply map_eq_app in H. destruct H as (b & c & -> & <- & <-). eauto 10.
Qed.

Definition sw_cup (b : box) : Prop := (exists x y rv, b = Cup x y rv) \/ (exists x y, b = Swap x y).
Definition all_sw_cup (ls : list layer) : Prop := All (fun x => sw_cup (l_box x)) ls.
Definition offs_of (ls : list layer) : list (box * nat) := map (fun x => (l_box x, List.length (l_left x))) ls.
Notation step := (fun acc '(b, o) => then_at acc (to_diag b) o).

Lemma nodup2 (sa : list nat) p q sc : NoDup (sa ++ p :: q :: sc) -> NoDup (sa ++ sc) /\ ~ In p (sa ++ sc) /\ ~ In q (sa ++ sc) /\ p <> q.
Proof.
  intro ND. apply NoDup_remove in ND. destruct ND as [ND1 ND2]. apply NoDup_remove in ND1. destruct ND1 as [ND0 ND1].
  split; auto. rewrite in_app_iff in ND2. cbn in ND2. split; [rewrite in_app_iff; tauto|]. split; auto.
Qed.
(** the main simulation *)
Lemma swap_types_ok ls : forall T scan t, all_sw_cup ls -> NoDup scan -> Forall (fun i => i < List.length T) scan ->
  chain (map (at_ T) scan) ls t ->
  exists TF, swap_types (offs_of ls) T scan = Ok TF /\ List.length TF = List.length T /\
    (forall i, ~ In i scan -> nth i TF da = nth i T da) /\
    (forall acc, cod acc = map (at_ TF) scan -> exists ls', 
       foldM step (kept_mors (offs_of ls)) acc = Ok (Diag (dom acc) t (layers acc ++ ls')) /\
       map l_box ls' = filter (fun b => negb (is_swap b)) (map l_box ls) /\ joined scan ls' = joined scan ls).
Proof.
  induction ls as [|[[l b] r] ls IH]; intros T scan t Hs ND Hb C.
  - cbn in C. exists T. cbn [offs_of map swap_types]. split; auto. split; auto. split; auto. intros acc E. cbn. exists [].
    rewrite app_nil_r. split; auto. rewrite <- C, <- E. now destruct acc.
  - cbn in C. destruct C as [C1 C2]. destruct Hs as [Hb1 Hs]. cbn [l_box] in Hb1. cbn [l_dom] in C1.
    apply map_eq_app3 in C1. destruct C1 as (sa & sb & sc & -> & E1 & E2 & E3).
    assert (Hla : List.length l = List.length sa) by (rewrite <- E1, map_length; auto).
    assert (Hlb : List.length sb = 2) by (destruct Hb1 as [(x & y & rv & ->)|(x & y & ->)]; apply (f_equal (@List.length _)) in E2; rewrite map_length in E2; exact E2).
    destruct sb as [|p [|q [|? ?]]]; try discriminate. clear Hlb.
    destruct Hb1 as [(x & y & rv & ->)|(x & y & ->)]; cbn [b_dom b_end b_cod l_cod app map] in *.
    + (* cup *)
      injection E2 as Ex Ey.
      assert (ND' : NoDup (sa ++ sc) /\ ~ In p (sa ++ sc) /\ ~ In q (sa ++ sc) /\ p <> q).
      { now apply nodup2. }
      destruct ND' as (ND1 & Np & Nq & Npq).
      assert (Hb' : Forall (fun i => i < List.length T) (sa ++ sc)) by (rewrite Forall_app in *; destruct Hb as [A1 A2]; inversion A2; subst; inversion H2; subst; auto).
      assert (Hpq : p < List.length T /\ q < List.length T) by (rewrite Forall_app in Hb; destruct Hb as [_ A2]; inversion A2; subst; inversion H2; subst; auto).
      destruct (IH T (sa ++ sc) t) as (TF & R1 & R2 & R3 & R4); auto.
      { rewrite map_app, E1, E3. exact C2. }
      exists TF. cbn [offs_of map swap_types is_swap l_box l_left is_cup]. fold (offs_of ls).
      change (p :: q :: sc) with ([p; q] ++ sc). rewrite Hla, (del_slice_app sa [p; q] sc : del_slice _ _ (List.length sa + 2) = _).
      split; [exact R1|]. split; auto. split.
      { intros i Hi. apply R3. rewrite in_app_iff in *. cbn in Hi. tauto. }
      intros acc E. cbn [kept_mors flat_map app is_swap foldM]. fold (kept_mors (offs_of ls)).
      assert (Eacc : cod acc = map (at_ TF) sa ++ [x; y] ++ map (at_ TF) sc).
      { rewrite E, map_app. cbn [map app]. rewrite (R3 p Np), (R3 q Nq), Ex, Ey. reflexivity. }
      erewrite then_at_ok; [|exact Eacc|now rewrite map_length]. cbn [bind].
      match goal with |- context [foldM _ _ ?a] => destruct (R4 a) as (ls' & F1 & F2 & F3) end.
      { cbn. now rewrite map_app. }
      rewrite F1. cbn [dom layers to_diag map l_extend]. eexists ((map (at_ TF) sa, Cup x y rv, map (at_ TF) sc) :: ls'). split; [|split].
      * cbn. rewrite !app_nil_r. now rewrite <- app_assoc.
      * cbn. f_equal. exact F2.
      * cbn [joined]. rewrite map_length, Hla.
        assert (S1 : firstn (List.length sa) (sa ++ p :: q :: sc) = sa) by (rewrite firstn_app, firstn_all, Nat.sub_diag; apply app_nil_r).
        assert (S2 : skipn (List.length sa + 2) (sa ++ p :: q :: sc) = sc).
        { change (p :: q :: sc) with ([p; q] ++ sc). rewrite app_assoc. replace (List.length sa + 2) with (List.length (sa ++ [p; q])) by (rewrite app_length; reflexivity).
          now rewrite skipn_app, skipn_all, Nat.sub_diag. }
        cbn [app] in *. rewrite S1, S2, F3. reflexivity.
    + (* swap *)
      injection E2 as Ex Ey.
      assert (Hpq : p < List.length T /\ q < List.length T) by (rewrite Forall_app in Hb; destruct Hb as [_ A2]; inversion A2; subst; inversion H2; subst; auto).
      assert (Npq : p <> q /\ ~ In p (sa ++ sc) /\ ~ In q (sa ++ sc)).
      { apply nodup2 in ND. tauto. }
      destruct Npq as (Npq & Np & Nq). destruct Hpq as [Hp Hq].
      set (T' := upd (upd T p y) q x).
      assert (HT : forall i, nth i T' da = if Nat.eqb q i then x else if Nat.eqb p i then y else nth i T da).
      { intro i. unfold T'. rewrite upd_nth by (rewrite upd_length; auto). rewrite upd_nth by auto. reflexivity. }
      assert (HL : List.length T' = List.length T) by (unfold T'; now rewrite !upd_length).
      destruct (IH T' (sa ++ p :: q :: sc) t) as (TF & R1 & R2 & R3 & R4); auto.
      { now rewrite HL. }
      { rewrite map_app. cbn [map]. rewrite !HT, Nat.eqb_refl. destruct (Nat.eqb_spec q p) as [|_]; [congruence|]. rewrite Nat.eqb_refl.
        replace (map (at_ T') sa) with l; [replace (map (at_ T') sc) with r; [exact C2|]|].
        - rewrite <- E3. apply map_ext_in. intros i Hi. rewrite HT. destruct (Nat.eqb_spec q i); [subst; exfalso; apply Nq, in_app_iff; auto|].
          destruct (Nat.eqb_spec p i); [subst; exfalso; apply Np, in_app_iff; auto|reflexivity].
        - rewrite <- E1. apply map_ext_in. intros i Hi. rewrite HT. destruct (Nat.eqb_spec q i); [subst; exfalso; apply Nq, in_app_iff; auto|].
          destruct (Nat.eqb_spec p i); [subst; exfalso; apply Np, in_app_iff; auto|reflexivity]. }
      exists TF. cbn [offs_of map swap_types is_swap l_box l_left]. fold (offs_of ls).
      rewrite (@idx_ok _ _ _ 0) by (rewrite app_length; cbn; lia). rewrite (@idx_ok _ (sa ++ p :: q :: sc) (S (List.length l)) 0) by (rewrite app_length; cbn; lia).
      cbn [bind]. rewrite Hla. rewrite (@app_nth2 _ sa _ 0 (List.length sa)) by lia. rewrite Nat.sub_diag.
      rewrite (@app_nth2 _ sa _ 0 (S (List.length sa))) by lia. replace (S (List.length sa) - List.length sa) with 1 by lia. cbn [nth].
      rewrite (@idx_ok _ T p da) by auto. rewrite (@idx_ok _ T q da) by auto. cbn [bind].
      rewrite Ex, Ey. fold T'. split; [exact R1|]. split; [congruence|]. split.
      { intros i Hi. rewrite R3 by auto. rewrite HT. rewrite in_app_iff in Hi. cbn in Hi.
        destruct (Nat.eqb_spec q i); [tauto|]. destruct (Nat.eqb_spec p i); [tauto|reflexivity]. }
      intros acc E. destruct (R4 acc E) as (ls' & F1 & F2 & F3). exists ls'. split; [exact F1|]. split; [exact F2|]. exact F3.
Qed.

(** ** words *)
Definition wd (x : layer) : Prop := exists l n c z, x = (l, Word n c z, []).
Definition arity (b : box) : list (string * nat) := match b with Word n c _ => [(n, List.length c)] | _ => [] end.
Lemma chain_words ws : forall s t, All wd ws -> chain s ws t -> t = s ++ flat_map b_cod (map l_box ws).
Proof.
  induction ws as [|x ws IH]; cbn [All chain map flat_map]; intros s t H C; [subst; now rewrite app_nil_r|].
  destruct H as [(l & n & c & z & ->) H]. destruct C as [C1 C2]. apply IH in C2; auto. subst t. cbn in *. rewrite !app_nil_r in *. subst. now rewrite app_assoc.
Qed.
Lemma retype_ok ws : forall T s t acc, All wd ws -> chain s ws t -> cod acc = firstn (List.length s) T -> List.length t <= List.length T ->
  exists ws', foldM step (retyped_words T (offs_of ws)) acc = Ok (Diag (dom acc) (firstn (List.length t) T) (layers acc ++ ws')) /\
    All wd ws' /\ map (fun x => arity (l_box x)) ws' = map (fun x => arity (l_box x)) ws.
Proof.
  induction ws as [|x ws IH]; cbn [All chain]; intros T s t acc H C E L.
  - subst. exists []. cbn. rewrite app_nil_r. split; auto. rewrite <- E. now destruct acc.
  - destruct H as [(l & n & c & z & ->) H]. destruct C as [C1 C2].
    assert (Hs : s = l) by (cbn in C1; rewrite !app_nil_r in C1; exact C1). clear C1. subst s. cbn [l_cod b_cod b_end] in C2. rewrite app_nil_r in C2.
    pose proof (chain_words H C2) as Et.
    assert (Hl : List.length (l ++ c) <= List.length t) by (rewrite Et, (app_length (l ++ c)); lia). rewrite app_length in Hl.
    cbn [offs_of map retyped_words l_box l_left foldM b_name b_cod b_end]. fold (offs_of ws). fold (retyped_words T (offs_of ws)).
    erewrite then_at_ok with (A := firstn (List.length l) T) (C := []); [| |].
    2:{ cbn. rewrite app_nil_r. exact E. }
    2:{ rewrite firstn_length, Nat.min_l by lia. reflexivity. }
    cbn [bind]. edestruct (IH T (l ++ c) t) as (ws' & F1 & F2 & F3); [exact H|exact C2| |exact L|].
    2:{ rewrite F1. cbn [dom layers]. eexists (_ :: ws'). split; [rewrite <- app_assoc; reflexivity|]. split.
        - split; [|exact F2]. cbn. do 4 eexists. reflexivity.
        - cbn [map]. f_equal; [|exact F3]. cbn. rewrite firstn_length, skipn_length, Nat.min_l by lia. reflexivity. }
    cbn. rewrite app_nil_r. rewrite app_length. rewrite <- (firstn_skipn (List.length l) T) at 3.
    rewrite firstn_app, firstn_length, Nat.min_l by lia. rewrite firstn_firstn, Nat.min_r by lia. f_equal. f_equal. lia.
Qed.

(** ** splitting a pregroup diagram *)
Lemma offs_words ws : All wd ws -> flat_map (fun x => if is_word (l_box x) then [(l_box x, List.length (l_left x))] else []) ws = offs_of ws /\
  flat_map (fun x => if negb (is_word (l_box x)) then [(l_box x, List.length (l_left x))] else []) ws = [].
Proof.
  induction ws as [|x ws IH]; cbn [All flat_map offs_of map]; auto. intros [(l & n & c & z & ->) H]. destruct (IH H) as [I1 I2]. cbn. rewrite I1, I2. auto.
Qed.
Lemma offs_mors ls : all_sw_cup ls -> flat_map (fun x => if is_word (l_box x) then [(l_box x, List.length (l_left x))] else []) ls = [] /\
  flat_map (fun x => if negb (is_word (l_box x)) then [(l_box x, List.length (l_left x))] else []) ls = offs_of ls.
Proof.
  induction ls as [|x ls IH]; cbn [All all_sw_cup flat_map offs_of map]; auto. intros [B H]. destruct (IH H) as [I1 I2]. destruct x as [[l b] r]. cbn [l_box] in *.
  destruct B as [(p & q & rv & ->)|(p & q & ->)]; cbn; rewrite ?I1, ?I2; auto.
Qed.
Lemma types_words ws : All wd ws -> flat_map (fun b => if is_word b then b_cod b else []) (map l_box ws) = flat_map b_cod (map l_box ws).
Proof. induction ws as [|x ws IH]; cbn [All flat_map map]; auto. intros [(l & n & c & z & ->) H]. cbn. now rewrite IH. Qed.
Lemma types_mors ls : all_sw_cup ls -> flat_map (fun b => if is_word b then b_cod b else []) (map l_box ls) = [].
Proof. induction ls as [|x ls IH]; cbn [All all_sw_cup flat_map map]; auto. intros [B H]. rewrite IH by auto. destruct B as [(p & q & rv & ->)|(p & q & ->)]; auto. Qed.
Lemma pg_split d : pregroup_form d -> exists ws ls, layers d = ws ++ ls /\ All wd ws /\ all_sw_cup ls /\ dom d = [] /\
  rs_words d = offs_of ws /\ rs_mors d = offs_of ls /\ atomic_types d = flat_map b_cod (map l_box ws).
Proof.
  intros (D & ws & ls & E & H1 & H2).
  assert (W : All wd ws). { apply All_in. intros [[l b] r] I. destruct (H1 _ _ _ I) as (-> & n & c & z & ->). do 4 eexists. reflexivity. }
  assert (M : all_sw_cup ls). { apply All_in. intros [[l b] r] I. exact (H2 _ _ _ I). }
  exists ws, ls. split; auto. split; auto. split; auto. split; auto. unfold rs_words, rs_mors, with_offsets, atomic_types.
  rewrite E, map_app, !flat_map_app. destruct (offs_words W) as [-> ->], (offs_mors M) as [-> ->]. rewrite types_words, types_mors by auto. now rewrite !app_nil_r.
Qed.
Lemma wd_form ws : All wd ws -> forall l b r, In (l, b, r) ws -> r = [] /\ exists n c z, b = Word n c z.
Proof. intros H l b r I. rewrite All_in in H. destruct (H _ I) as (l' & n & c & z & E). injection E as -> -> ->. eauto. Qed.
Lemma map_arity (xs ys : list layer) : map (fun x => arity (l_box x)) xs = map (fun x => arity (l_box x)) ys ->
  flat_map arity (map l_box xs) = flat_map arity (map l_box ys).
Proof. intro H. rewrite !flat_map_concat_map, !map_map. now rewrite H. Qed.
Lemma arity_none ls : all_sw_cup ls -> flat_map arity (map l_box ls) = [].
Proof. induction ls as [|x ls IH]; cbn [All all_sw_cup flat_map map]; auto. intros [B H]. rewrite IH by auto. destruct B as [(p & q & rv & ->)|(p & q & ->)]; auto. Qed.
Lemma joined_words ws ls : forall ids, All wd ws -> joined ids (ws ++ ls) = joined ids ls.
Proof. induction ws as [|x ws IH]; cbn [All app]; auto. intros ids [(l & n & c & z & ->) H]. cbn. auto. Qed.
Lemma arity_sum ws : All wd ws -> fold_right Nat.add 0 (map snd (flat_map arity (map l_box ws))) = List.length (flat_map b_cod (map l_box ws)).
Proof. induction ws as [|x ws IH]; cbn [All map flat_map]; auto. intros [(l & n & c & z & ->) H]. cbn. rewrite app_length, IH; auto. Qed.

Lemma map_nth_seq (T : ty) : map (at_ T) (seq 0 (List.length T)) = T.
Proof.
  apply (nth_ext _ _ da da); [now rewrite map_length, seq_length|]. intros i H. rewrite map_length, seq_length in H.
  rewrite (nth_indep _ da (nth 0 T da)) by (rewrite map_length, seq_length; auto). rewrite (map_nth (at_ T)). now rewrite seq_nth.
Qed.
Lemma fold_wf bs : forall acc e, wf acc -> Forall (fun x => box_ok (fst x)) bs -> foldM step bs acc = Ok e -> wf e /\ dom e = dom acc.
Proof.
  induction bs as [|[b o] bs IH]; intros acc e W H E; cbn [foldM] in E; [injection E as <-; auto|].
  inversion H as [|? ? H1 H2]; subst. cbn [fst] in H1. destruct (then_at acc (to_diag b) o) as [a|] eqn:Ea; [|discriminate]. cbn [bind] in E.
  unfold then_at in Ea.
  assert (Wa : wf a /\ dom a = dom acc).
  { split; [|apply d_then_inv in Ea; destruct Ea as [_ ->]; reflexivity].
    eapply wf_then; [exact W| |exact Ea]. repeat apply wf_tensor; try apply wf_id. now apply wf_to_diag. }
  destruct Wa as [Wa Da]. destruct (IH _ _ Wa H2 E). split; auto. congruence.
Qed.

Lemma swapped_ok d : wf d -> pregroup_form d ->
  exists e, swapped d = Ok e /\ typed e [] (cod d) /\ pregroup_form e /\ no_swaps e /\ word_arities e = word_arities d /\
    cup_boxes e = cup_boxes d /\ joined (wires d) (layers e) = joined (wires d) (layers d).
Proof.
  intros [C B] P. destruct (pg_split P) as (ws & ls & E & W & M & D & Ew & Em & Et).
  unfold swapped. rewrite Ew, Em, Et. rewrite E in C, B. rewrite D in *.
  apply chain_app in C. destruct C as (mid & C1 & C2). pose proof (chain_words W C1) as Emid. cbn [app] in Emid. rewrite <- Emid.
  destruct (@swap_types_ok ls mid (seq 0 (List.length mid)) (cod d)) as (TF & R1 & R2 & R3 & R4); auto.
  { apply seq_NoDup. } { apply Forall_forall. intros i Hi. apply in_seq in Hi. lia. } { now rewrite map_nth_seq. }
  rewrite R1. cbn [bind]. unfold rebuild. rewrite foldM_app.
  destruct (@retype_ok ws TF [] mid (id [])) as (ws' & F1 & F2 & F3); auto; [lia|].
  rewrite F1. cbn [bind id dom layers app]. rewrite <- R2, firstn_all.
  destruct (R4 (Diag [] TF ws')) as (ls' & G1 & G2 & G3).
  { cbn [cod]. rewrite <- R2. now rewrite map_nth_seq. }
  rewrite G1. cbn [dom layers]. eexists. split; [reflexivity|].
  assert (M' : all_sw_cup ls' /\ forall x, In x ls' -> is_swap (l_box x) = false).
  { assert (Q : forall b, In b (map l_box ls') -> sw_cup b /\ is_swap b = false).
    { intros b I. rewrite G2 in I. apply filter_In in I. destruct I as [I1 I2]. apply in_map_iff in I1. destruct I1 as (x & <- & I1).
      unfold all_sw_cup in M. rewrite All_in in M. split; auto. now apply negb_true_iff. }
    split; [apply All_in|]; intros x I; apply Q; now apply in_map. }
  destruct M' as [M1 M2]. split; [|split; [|split; [|split; [|split]]]].
  - split; [|split; auto].
    assert (X : foldM step (retyped_words TF (offs_of ws) ++ kept_mors (offs_of ls)) (id []) = Ok (Diag [] (cod d) (ws' ++ ls'))).
    { rewrite foldM_app, F1. cbn [bind id dom layers app]. rewrite <- R2, firstn_all. exact G1. }
    eapply fold_wf; [apply wf_id| |exact X]. apply Forall_app. split.
    + apply Forall_forall. intros [b o] I. unfold retyped_words in I. apply in_map_iff in I. destruct I as ([b' o'] & [= <- <-] & _). exact I.
    + apply Forall_forall. intros [b o] I. unfold kept_mors in I. apply in_flat_map in I. destruct I as ([b' o'] & I & J).
      destruct (is_swap b'); [destruct J|]. destruct J as [[= <- <-]|[]]. unfold offs_of in I. apply in_map_iff in I. destruct I as (x & [= <- <-] & I).
      apply All_app in B. destruct B as [_ B]. rewrite All_in in B. now apply B.
  - split; [reflexivity|]. exists ws', ls'. split; [reflexivity|]. split; [now apply wd_form|].
    intros l b r I. unfold all_sw_cup in M1. rewrite All_in in M1. exact (M1 _ I).
  - intros l x y r I. cbn [layers] in I. apply in_app_iff in I. destruct I as [I|I].
    + destruct (wd_form F2 I) as (_ & n & c & z & ?). discriminate.
    + apply M2 in I. discriminate.
  - unfold word_arities, boxes. rewrite E. cbn [layers]. fold arity. rewrite !map_app, !flat_map_app, (arity_none M1), (arity_none M). now rewrite (map_arity F3).
  - unfold cup_boxes, boxes. rewrite E. cbn [layers]. rewrite !map_app, !flat_map_app. f_equal.
    + clear -F2 W. transitivity (@nil box).
      * induction ws' as [|x ws' IH]; auto. destruct F2 as [(l & n & c & z & ->) F2]. cbn. auto.
      * induction ws as [|x ws IH]; auto. destruct W as [(l & n & c & z & ->) F2']. cbn. auto.
    + rewrite G2. clear -M. induction ls as [|x ls IH]; auto. destruct M as [Mx M]. cbn [map filter flat_map]. rewrite <- IH by auto.
      destruct Mx as [(p & q & rv & ->)|(p & q & ->)]; reflexivity.
  - cbn [layers]. rewrite E, !joined_words by auto.
    assert (Ewr : wires d = seq 0 (List.length mid)).
    { unfold wires. f_equal. unfold word_arities, boxes. rewrite E, map_app. fold arity. rewrite flat_map_app, (arity_none M), app_nil_r. rewrite arity_sum by auto. now rewrite Emid. }
    rewrite Ewr. exact G3.
Qed.

(** ** the second stage without detached cups *)
Definition cups_only (ls : list layer) : Prop := All (fun x => exists p q rv, l_box x = Cup p q rv) ls.
Definition link (m : rs_mor) : nat * nat := (m_start m, m_end m).
Lemma mors_ok ls : forall scan s t, cups_only ls -> chain s ls t -> List.length scan = List.length s ->
  exists ms, rs_morphisms (offs_of ls) scan = Ok ms /\ map (fun m => (m_box m, m_off m)) ms = offs_of ls /\
    map link ms = joined scan ls /\ Forall (fun m => m_deleted m = false) ms.
Proof.
  induction ls as [|[[l b] r] ls IH]; intros scan s t H C L; cbn [offs_of map rs_morphisms joined]; [exists []; auto|].
  destruct H as [(p & q & rv & E) H]. cbn [l_box] in E. subst b. destruct C as [C1 C2]. cbn [l_box l_left is_cup b_dom b_end List.length].
  rewrite C1 in L. cbn in L. rewrite app_length in L. cbn [List.length] in L.
  rewrite (@idx_ok _ scan (List.length l) 0) by lia. cbn [bind].
  unfold py_index. replace (Z.of_nat (List.length l) + Z.of_nat 2 - 1)%Z with (Z.of_nat (S (List.length l))) by lia.
  destruct (Z.of_nat (S (List.length l)) <? 0)%Z eqn:Q; [apply Z.ltb_lt in Q; lia|]. clear Q.
  replace ((0 <=? Z.of_nat (S (List.length l))) && (Z.of_nat (S (List.length l)) <? Z.of_nat (List.length scan)))%Z with true by (symmetry; apply andb_true_intro; split; [apply Z.leb_le|apply Z.ltb_lt]; lia).
  rewrite Nat2Z.id, (nth_error_nth' scan 0) by lia. cbn [bind]. fold (offs_of ls).
  unfold del_slice. rewrite Nat.max_r by lia.
  destruct (IH (firstn (List.length l) scan ++ skipn (List.length l + 2) scan) (l ++ r) t) as (ms & E1 & E2 & E3 & E4); auto.
  { rewrite !app_length, firstn_length, skipn_length. lia. }
  rewrite E1. cbn [bind]. eexists. split; [reflexivity|]. cbn [map m_box m_off link m_start m_end]. rewrite E2, E3. auto.
Qed.
Lemma detach_none off len ms : forall scan, (forall m, In m ms -> in_rng (m_start m) off len && in_rng (m_end m) off len = false) -> rs_detach off len ms scan = (ms, scan).
Proof.
  induction ms as [|m ms IH]; intros scan H; cbn [rs_detach]; auto.
  replace (is_cup (m_box m) && in_rng (m_start m) off len && in_rng (m_end m) off len) with false.
  - rewrite IH; auto. intros; apply H; cbn; auto.
  - rewrite <- andb_assoc, H by (cbn; auto). now rewrite andb_false_r.
Qed.
Lemma wordloop_none T ws : forall fuel ms, List.length ws <= fuel ->
  (forall w off m, In (w, off) ws -> In m ms -> in_rng (m_start m) off (List.length (b_cod w)) && in_rng (m_end m) off (List.length (b_cod w)) = false) ->
  rs_wordloop fuel T ws ms = Ok (map fst ws, ms).
Proof.
  induction ws as [|[w off] ws IH]; intros fuel ms L H; [now destruct fuel|]. destruct fuel as [|fuel]; [cbn in L; lia|].
  cbn [rs_wordloop]. rewrite detach_none by (intros; eapply H; cbn; eauto). rewrite seq_length, Nat.eqb_refl.
  rewrite IH; [reflexivity|cbn in L; lia|]. intros; eapply H; cbn; eauto.
Qed.
Lemma offsets_none ms : forall before offs, Forall (fun m => m_deleted m = false) ms ->
  rs_offsets before ms offs = Ok (offs ++ map (fun m => Z.of_nat (m_off m)) ms).
Proof.
  induction ms as [|m ms IH]; intros before offs H; cbn [rs_offsets map]; [now rewrite app_nil_r|]. inversion H; subst.
  rewrite H2. cbn [negb]. rewrite IH by auto. now rewrite <- app_assoc.
Qed.
Lemma word_offsets_ok ws : forall s t, All wd ws -> chain s ws t ->
  rs_word_offsets (List.length s) (map fst (offs_of ws)) = map (fun x => (l_box x, Z.of_nat (List.length (l_left x)))) ws.
Proof.
  induction ws as [|x ws IH]; intros s t H C; cbn [offs_of map rs_word_offsets]; auto. destruct H as [(l & n & c & z & ->) H]. destruct C as [C1 C2].
  cbn in C1. rewrite !app_nil_r in C1. subst s. cbn [fst l_box l_left b_cod b_end]. f_equal. fold (offs_of ws).
  cbn [l_cod b_cod b_end] in C2. rewrite app_nil_r in C2. rewrite <- app_length. now apply IH with t.
Qed.
Lemma refold ls : forall acc t, chain (cod acc) ls t ->
  foldM step (map (fun x => (l_box x, Z.of_nat (List.length (l_left x)))) ls) acc = Ok (Diag (dom acc) t (layers acc ++ ls)).
Proof.
  induction ls as [|x ls IH]; intros acc t C; cbn [map foldM].
  - cbn in C. subst. rewrite app_nil_r. now destruct acc.
  - cbn in C. destruct C as [C1 C2]. destruct x as [[l b] r]. cbn [l_box l_left].
    erewrite then_at_ok; [|exact C1|reflexivity]. cbn [bind]. rewrite (IH _ t); [|exact C2]. cbn. rewrite !app_nil_r, <- app_assoc. reflexivity.
Qed.
Lemma form_pregroup d : pregroup_form d -> is_pregroup d = true.
Proof. intro H. now apply is_pregroup_spec. Qed.
Lemma pregroup_is d : is_pregroup d = true -> pregroup_form d.
Proof. intro H. now apply is_pregroup_spec. Qed.
Lemma detached_none e : wf e -> pregroup_form e -> no_swaps e -> no_detached_cup e -> remove_detached e = Ok e.
Proof.
  intros [C B] P N ND. unfold remove_detached. rewrite form_pregroup by auto. cbn [negb].
  destruct (pg_split P) as (ws & ls & E & W & M & D & Ew & Em & Et). rewrite Ew, Em, Et. rewrite E, D in C.
  apply chain_app in C. destruct C as (mid & C1 & C2). pose proof (chain_words W C1) as Emid. cbn [app] in Emid. rewrite <- Emid.
  assert (CO : cups_only ls).
  { apply All_in. intros x I. unfold all_sw_cup in M. rewrite All_in in M. destruct (M _ I) as [?|(p & q & Q)]; auto.
    exfalso. destruct x as [[l b] r]. cbn in Q. subst b. apply (N l p q r). rewrite E. apply in_app_iff. auto. }
  destruct (@mors_ok ls (seq 0 (List.length mid)) mid (cod e)) as (ms & E1 & E2 & E3 & E4); auto; [now rewrite seq_length|].
  rewrite E1. cbn [bind]. rewrite wordloop_none; [|unfold offs_of; lia|].
  2:{ intros w off m I J. unfold offs_of in I. apply in_map_iff in I. destruct I as (x & [= <- <-] & I).
      pose proof W as W'. rewrite All_in in W'. destruct (W' _ I) as (l & n & c & z & ->). cbn [l_box l_left b_cod b_end].
      assert (Ewr : wires e = seq 0 (List.length mid)).
      { unfold wires. f_equal. unfold word_arities, boxes. rewrite E, map_app. fold arity. rewrite flat_map_app, (arity_none M), app_nil_r. rewrite arity_sum by auto. now rewrite Emid. }
      specialize (ND l n c z [] (m_start m) (m_end m)). rewrite E, Ewr, joined_words, <- E3 in ND by auto.
      match goal with |- ?x = false => destruct x eqn:Q; auto end.
      exfalso. apply ND.
      - apply in_app_iff. auto.
      - apply in_map_iff. exists m. auto.
      - apply andb_prop in Q. unfold in_rng in Q. destruct Q as [Q1 Q2]. apply andb_prop in Q1, Q2. destruct Q1 as [Q1 Q3], Q2 as [Q2 Q4].
        apply Nat.leb_le in Q1, Q2. apply Nat.ltb_lt in Q3, Q4. lia. }
  cbn [bind fst snd]. rewrite offsets_none by auto. cbn [bind app].
  assert (F : filter (fun m => negb (m_deleted m)) ms = ms). { clear -E4. induction E4 as [|m ms H1 H2 IH]; cbn; auto. now rewrite H1, IH. }
  rewrite F. unfold rebuild.
  assert (Cm : combine (map m_box ms) (map (fun m => Z.of_nat (m_off m)) ms) = map (fun x => (l_box x, Z.of_nat (List.length (l_left x)))) ls).
  { transitivity (map (fun x : box * nat => (fst x, Z.of_nat (snd x))) (map (fun m => (m_box m, m_off m)) ms)).
    - clear. induction ms; cbn; auto. now f_equal.
    - rewrite E2. unfold offs_of. now rewrite map_map. }
  rewrite Cm. pose proof (word_offsets_ok W C1) as Wo. cbn [List.length] in Wo. rewrite Wo, <- map_app, <- E, D.
  rewrite (@refold (layers e) (id []) (cod e)).
  - destruct e. cbn in *. now subst.
  - cbn [cod id]. rewrite E. eapply chain_app_i; eauto.
Qed.
Lemma wires_arity d e : word_arities e = word_arities d -> wires e = wires d.
Proof. unfold wires. now intros ->. Qed.
Lemma same_place ws' l n c z r : forall ws mid mid' s s', All wd ws -> All wd ws' -> flat_map arity (map l_box ws') = flat_map arity (map l_box ws) ->
  chain s ws mid -> chain s' ws' mid' -> List.length s = List.length s' -> In (l, Word n c z, r) ws' ->
  exists l0 n0 c0 z0, In (l0, Word n0 c0 z0, []) ws /\ List.length l0 = List.length l /\ List.length c0 = List.length c.
Proof.
  induction ws' as [|x' ws' IH]; intros ws mid mid' s s' Ws Ws' A C C' L I'; [destruct I'|].
  destruct Ws' as [(l1 & n1 & c1 & z1 & ->) Ws']. cbn [map flat_map l_box arity app] in A.
  destruct ws as [|x ws]; [discriminate|]. destruct Ws as [(l2 & n2 & c2 & z2 & ->) Ws]. cbn [map flat_map l_box arity app] in A.
  injection A as E1 E2 A. destruct C as [Ca Cb], C' as [Ca' Cb']. cbn in Ca, Ca', Cb, Cb'. rewrite !app_nil_r in *. subst s s'.
  destruct I' as [[= -> -> -> -> <-]|I'].
  - exists l2, n2, c2, z2. split; [cbn; auto|]. split; lia.
  - destruct (IH ws _ _ _ _ Ws Ws' A Cb Cb') as (l0 & n0 & c0 & z0 & K1 & K2 & K3); auto; [rewrite !app_length; lia|].
    exists l0, n0, c0, z0. cbn. auto.
Qed.
Lemma remove_swaps_ok d : wf d -> pregroup_form d -> no_detached_cup d ->
  exists e, remove_swaps d = Ok e /\ typed e [] (cod d) /\ pregroup_form e /\ no_swaps e /\ word_arities e = word_arities d /\ cup_boxes e = cup_boxes d.
Proof.
  intros W P ND. destruct (swapped_ok W P) as (e & E & T & Pe & Ns & Ea & Ec & Ej). exists e. unfold remove_swaps. rewrite E. cbn [bind].
  split; auto. apply detached_none; auto; [apply T|].
  intros l n c z r p q I J [H1 H2]. rewrite (wires_arity Ea), Ej in J.
  (* the word of d at the same place *)
  pose proof W as [Cd _]. destruct (pg_split P) as (ws & ls & El & Ws & M & D & _). destruct (pg_split Pe) as (ws' & ls' & El' & Ws' & M' & D' & _).
  rewrite El, D in Cd. apply chain_app in Cd. destruct Cd as (mid & C1 & _).
  pose proof (proj1 (proj1 T)) as Ce. rewrite El', D' in Ce. apply chain_app in Ce. destruct Ce as (mid' & C1' & _).
  assert (A : flat_map arity (map l_box ws') = flat_map arity (map l_box ws)).
  { unfold word_arities, boxes in Ea. rewrite El, El', !map_app in Ea. fold arity in Ea. rewrite !flat_map_app, (arity_none M), (arity_none M'), !app_nil_r in Ea. exact Ea. }
  assert (I' : In (l, Word n c z, r) ws').
  { rewrite El' in I. apply in_app_iff in I. destruct I as [I|I]; auto. exfalso. unfold all_sw_cup in M'. rewrite All_in in M'.
    destruct (M' _ I) as [(? & ? & ? & Q)|(? & ? & Q)]; discriminate. }
  assert (K : exists l0 n0 c0 z0, In (l0, Word n0 c0 z0, []) ws /\ List.length l0 = List.length l /\ List.length c0 = List.length c).
  { exact (same_place Ws Ws' A C1 C1' eq_refl I'). }
  destruct K as (l0 & n0 & c0 & z0 & K1 & K2 & K3). apply (ND l0 n0 c0 z0 [] p q).
  - rewrite El. apply in_app_iff. auto.
  - exact J.
  - rewrite K2, K3. auto.
Qed.

(** ** every returned diagram *)
Lemma wordloop_words T ws : forall fuel ms r, (forall w off, In (w, off) ws -> exists n c z, w = Word n c z) ->
  rs_wordloop fuel T ws ms = Ok r -> Forall (fun w => exists n c z, w = Word n c z) (fst r) /\ map m_box (snd r) = map m_box ms.
Proof.
  assert (Dt : forall off len ms scan, map m_box (fst (rs_detach off len ms scan)) = map m_box ms).
  { clear. intros off len. induction ms as [|m ms IH]; intro scan; cbn [rs_detach]; auto. destruct (_ && _ && _).
    - specialize (IH (del_slice scan (m_start m - off) (m_start m - off + 2))). destruct (rs_detach off len ms _). cbn in *. now f_equal.
    - specialize (IH scan). destruct (rs_detach off len ms scan). cbn in *. now f_equal. }
  intro fuel. revert ws. induction fuel as [|fuel IH]; intros ws ms r H E.
  - destruct ws as [|[w off] ws]; cbn in E; injection E as <-; split; auto; constructor.
  - destruct ws as [|[w off] ws]; [cbn in E; injection E as <-; split; auto; constructor|]. cbn [rs_wordloop] in E.
    specialize (Dt off (List.length (b_cod w)) ms (seq off (List.length (b_cod w)))).
    destruct (rs_detach off (List.length (b_cod w)) ms (seq off (List.length (b_cod w)))) as [ms1 scan]. cbn [fst] in Dt.
    assert (Hw : exists n c z, w = Word n c z) by (eapply H; cbn; eauto).
    assert (Hws : forall w off, In (w, off) ws -> exists n c z, w = Word n c z) by (intros; eapply H; cbn; eauto).
    destruct (Nat.eqb (List.length scan) (List.length (b_cod w))).
    + destruct (rs_wordloop fuel T ws ms1) as [r'|] eqn:E'; [|discriminate]. cbn [bind] in E. injection E as <-. destruct (IH _ _ _ Hws E'). cbn [fst snd]. split; [constructor; auto|congruence].
    + destruct (Nat.ltb 0 (List.length scan)).
      * destruct (mapM (idx T) scan) as [typ|]; [|discriminate]. cbn [bind] in E. destruct (rs_wordloop fuel T ws ms1) as [r'|] eqn:E'; [|discriminate].
        cbn [bind] in E. injection E as <-. destruct (IH _ _ _ Hws E'). cbn [fst snd]. split; [constructor; eauto|congruence].
      * destruct ws as [|[w2 off2] ws2]; [discriminate|]. apply IH in E; [destruct E as [I1 I2]; split; auto; congruence|].
        intros w' off' [[= <- <-]|I]; [eauto|]. eapply Hws; cbn; eauto.
Qed.
Lemma mors_box ms0 : forall scan ms, rs_morphisms ms0 scan = Ok ms -> map m_box ms = map fst ms0.
Proof.
  induction ms0 as [|[b o] ms0 IH]; intros scan ms E; cbn [rs_morphisms] in E; [injection E as <-; reflexivity|].
  destruct (idx scan o); [|discriminate]. cbn [bind] in E. destruct (py_index scan _); [|discriminate]. cbn [bind] in E.
  destruct (rs_morphisms ms0 _) as [r|] eqn:E'; [|discriminate]. cbn [bind] in E. injection E as <-. cbn. f_equal. eapply IH; eauto.
Qed.
Lemma fold_words ws : forall acc, Forall (fun w => exists n c z, w = Word n c z) ws ->
  exists ls, foldM step (rs_word_offsets (List.length (cod acc)) ws) acc = Ok (Diag (dom acc) (cod acc ++ flat_map b_cod ws) (layers acc ++ ls)) /\ All wd ls.
Proof.
  induction ws as [|w ws IH]; intros acc H; cbn [rs_word_offsets foldM flat_map].
  - exists []. rewrite !app_nil_r. split; [now destruct acc|exact I].
  - inversion H as [|? ? (n & c & z & ->) H2]; subst. rewrite (@then_at_ok acc (to_diag (Word n c z)) (cod acc) []); [|cbn; now rewrite app_nil_r|reflexivity].
    cbn [bind]. match goal with |- context [foldM _ _ ?a] => destruct (IH a H2) as (ls & E & A) end.
    cbn [cod to_diag b_cod b_end app] in *. rewrite app_nil_r, app_length in *. cbn [b_cod b_end to_diag cod]. rewrite E. cbn [dom layers map to_diag l_extend].
    eexists (_ :: ls). split; [rewrite <- !app_assoc; reflexivity|]. split; auto. do 4 eexists. cbn. rewrite !app_nil_r. reflexivity.
Qed.
Lemma fold_boxes bs : forall acc e, foldM step bs acc = Ok e -> exists ls, layers e = layers acc ++ ls /\ map l_box ls = map fst bs.
Proof.
  induction bs as [|[b o] bs IH]; intros acc e E; cbn [foldM] in E; [injection E as <-; exists []; rewrite app_nil_r; auto|].
  destruct (then_at acc (to_diag b) o) as [a|] eqn:Ea; [|discriminate]. cbn [bind] in E. destruct (IH _ _ E) as (ls & E1 & E2).
  unfold then_at in Ea. apply d_then_inv in Ea. destruct Ea as [_ ->]. cbn [layers] in E1. rewrite <- app_assoc in E1.
  eexists. split; [exact E1|]. rewrite map_app, E2. reflexivity.
Qed.
Lemma remove_swaps_sound d e : wf d -> pregroup_form d -> remove_swaps d = Ok e ->
  wf e /\ dom e = [] /\ pregroup_form e /\ no_swaps e /\ (forall b, In b (cup_boxes e) -> In b (cup_boxes d)).
Proof.
  intros W P E. destruct (swapped_ok W P) as (d1 & E1 & T & P1 & Ns & Ea & Ec & _). unfold remove_swaps in E. rewrite E1 in E. cbn [bind] in E.
  rewrite <- Ec. clear E1 Ec Ea W P. destruct T as (W1 & D1 & _). unfold remove_detached in E. rewrite form_pregroup in E by auto. cbn [negb] in E.
  destruct (pg_split P1) as (ws & ls & El & W & M & D & Ew & Em & Et). rewrite Ew, Em in E.
  destruct (rs_morphisms (offs_of ls) _) as [ms|] eqn:Ems; [|discriminate]. cbn [bind] in E.
  destruct (rs_wordloop _ _ (offs_of ws) ms) as [wm|] eqn:Ewm; [|discriminate]. cbn [bind] in E.
  destruct (rs_offsets [] (snd wm) []) as [offs|]; [|discriminate]. cbn [bind] in E.
  assert (HW : forall w off, In (w, off) (offs_of ws) -> exists n c z, w = Word n c z).
  { intros w off I. unfold offs_of in I. apply in_map_iff in I. destruct I as (x & [= <- <-] & I). rewrite All_in in W. destruct (W _ I) as (l & n & c & z & ->). cbn. eauto. }
  destruct (wordloop_words HW Ewm) as [Fw Fm]. pose proof (mors_box Ems) as Fb. rewrite Fb in Fm.
  unfold rebuild in E. rewrite foldM_app in E. destruct (@fold_words (fst wm) (id []) Fw) as (lw & Elw & Alw). cbn [cod id List.length] in Elw. rewrite D, Elw in E. cbn [bind dom id layers app] in E.
  set (bs := combine (map m_box (filter (fun m => negb (m_deleted m)) (snd wm))) offs) in E.
  assert (Hbs : forall b o, In (b, o) bs -> In b (map l_box ls)).
  { intros b o I. unfold bs in I. apply in_combine_l in I. apply in_map_iff in I. destruct I as (m & <- & I). apply filter_In in I. destruct I as [I _].
    apply (in_map m_box) in I. rewrite Fm in I. unfold offs_of in I. rewrite map_map in I. exact I. }
  assert (Hcup : forall b, In b (map l_box ls) -> exists x y rv, b = Cup x y rv).
  { intros b I. apply in_map_iff in I. destruct I as ([[l b'] r] & <- & I). cbn. pose proof M as M'. unfold all_sw_cup in M'. rewrite All_in in M'. destruct (M' _ I) as [?|(x & y & Q)]; auto.
    exfalso. cbn in Q. subst b'. apply (Ns l x y r). rewrite El. apply in_app_iff. auto. }
  destruct (fold_boxes E) as (le & Ele & Ebe). cbn [layers] in Ele.
  assert (Hle : forall x, In x le -> exists p q rv, l_box x = Cup p q rv /\ In (l_box x) (map l_box ls)).
  { intros x I. apply (in_map l_box) in I. rewrite Ebe in I. apply in_map_iff in I. destruct I as ([b o] & Q & I). cbn in Q. rewrite <- Q.
    pose proof (Hbs _ _ I) as J. destruct (Hcup _ J) as (p & q & rv & Q2). exists p, q, rv. auto. }
  assert (WE : wf e /\ dom e = []).
  { assert (X : foldM step (rs_word_offsets 0 (fst wm) ++ bs) (id []) = Ok e) by (rewrite foldM_app, Elw; exact E).
    apply fold_wf in X; [exact X|apply wf_id|]. apply Forall_app. split.
    - clear -Fw. generalize 0 as k. induction Fw as [|w l (n & c & z & ->) Fw IH]; intro k; cbn [rs_word_offsets]; constructor; [exact I|apply IH].
    - apply Forall_forall. intros [b o] I. cbn. apply Hbs in I. destruct W1 as [_ B1]. rewrite El in B1. apply All_app in B1. destruct B1 as [_ B1]. rewrite All_in in B1.
      apply in_map_iff in I. destruct I as (x & <- & I). now apply B1. }
  destruct WE as [We De]. split; auto. split; auto. split; [|split].
  - split; auto. exists lw, le. split; auto. split; [now apply wd_form|]. intros l b r I. apply Hle in I. destruct I as (p & q & rv & Q & _). cbn in Q. eauto.
  - intros l x y r I. rewrite Ele in I. apply in_app_iff in I. destruct I as [I|I].
    + destruct (wd_form Alw I) as (_ & n & c & z & ?). discriminate.
    + apply Hle in I. destruct I as (p & q & rv & Q & _). discriminate.
  - intros b I. unfold cup_boxes, boxes in *. rewrite Ele, map_app, flat_map_app, in_app_iff in I. destruct I as [I|I].
    + exfalso. clear -I Alw. induction lw as [|x lw IH]; [destruct I|]. destruct Alw as [(l & n & c & z & ->) Alw]. auto.
    + apply in_flat_map in I. destruct I as (b' & I & J). apply in_map_iff in I. destruct I as (x & <- & I). apply Hle in I. destruct I as (p & q & rv & Q & I).
      rewrite Q in *. cbn in J. destruct J as [<-|[]]. rewrite El, map_app, flat_map_app, in_app_iff. right. apply in_flat_map. eexists. split; [exact I|]. cbn. auto.
Qed.
