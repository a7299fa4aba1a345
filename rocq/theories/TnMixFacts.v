(** Mixed [to_tn] connects the wires of the circuit (proofs only). *)
From Coq Require Import QArith.
From Verif Require Import PyBase PyFacts DiagMisc GDiag GDiagSpec GDiagFacts QModel TnModel TnSpec TnFacts TnMixModel TnMixSpec.
Close Scope Q_scope. Set Implicit Arguments. Unset Strict Implicit.

(** ** positions and ranks *)
Lemma wire_eqb_ok a b : wire_eqb a b = true <-> a = b. Proof. destruct a, b; cbn; split; congruence. Qed.
Lemma wcount_app w a b : wcount w (a ++ b) = wcount w a + wcount w b. Proof. unfold wcount. now rewrite filter_app, app_length. Qed.
Lemma wcount_repeat w n : wcount w (repeat w n) = n.
Proof. unfold wcount. induction n; cbn; auto. destruct w; cbn; now rewrite IHn. Qed.
Lemma filter_map_swap A B (f : A -> B) (p : B -> bool) l : filter p (map f l) = map f (filter (fun x => p (f x)) l).
Proof. induction l as [|x l IH]; cbn; auto. destruct (p (f x)); cbn; now rewrite IH. Qed.
Lemma posns_app w a b : posns w (a ++ b) = posns w a ++ map (fun p => List.length a + p) (posns w b).
Proof.
  unfold posns. rewrite app_length, seq_app, filter_app. f_equal.
  - apply filter_ext_in. intros p Hp. apply in_seq in Hp. now rewrite nth_error_app1 by lia.
  - cbn. assert (E : forall n k, seq k n = map (fun p => k + p) (seq 0 n)). { intros n k. rewrite <- (map_id (seq k n)). apply (map_seq_from (fun x => x)). }
    rewrite E, filter_map_swap. f_equal. apply filter_ext. intro p. rewrite nth_error_app2 by lia. replace (List.length a + p - List.length a) with p by lia. reflexivity.
Qed.
Lemma posns_lt w l p : In p (posns w l) -> p < List.length l /\ nth_error l p = Some w.
Proof. intro H. apply filter_In in H. destruct H as [H1 H2]. apply in_seq in H1. split; [lia|]. destruct (nth_error l p) eqn:E; [|discriminate]. apply wire_eqb_ok in H2. congruence. Qed.
Lemma posns_length w l : List.length (posns w l) = wcount w l.
Proof. induction l as [|x l IH] using rev_ind; [reflexivity|]. rewrite posns_app, app_length, map_length, IH, wcount_app. f_equal. unfold posns, wcount. cbn. destruct (wire_eqb w x); reflexivity. Qed.
Lemma rank_posns w l : map (rank l) (posns w l) = seq 0 (wcount w l).
Proof.
  induction l as [|x l IH] using rev_ind; [reflexivity|]. rewrite posns_app, map_app, wcount_app, seq_app, map_map. f_equal.
  - rewrite <- IH. apply map_ext_in. intros p Hp. apply posns_lt in Hp. destruct Hp as [Hp E]. unfold rank. rewrite nth_error_app1, E, firstn_app by lia. replace (p - List.length l) with 0 by lia. cbn. now rewrite app_nil_r.
  - unfold posns, wcount. cbn. destruct (wire_eqb w x) eqn:E; [|reflexivity]. apply wire_eqb_ok in E. subst x. cbn. unfold rank. rewrite nth_error_app2, Nat.add_0_r, Nat.sub_diag by lia. cbn. rewrite firstn_app, firstn_all, Nat.sub_diag. cbn. now rewrite app_nil_r.
Qed.
Lemma posns_all l : Permutation (seq 0 (List.length l)) (posns Bt l ++ posns Qb l).
Proof.
  unfold posns. assert (G : forall (xs : list nat) (f g : nat -> bool), (forall p, In p xs -> f p = negb (g p)) -> Permutation xs (filter f xs ++ filter g xs)).
  { induction xs as [|x xs IH]; intros f g H; [reflexivity|]. cbn. rewrite (H x) by now left. destruct (g x); cbn; [rewrite <- Permutation_middle|]; constructor; apply IH; intros; apply H; now right. }
  apply G. intros p Hp. apply in_seq in Hp. destruct (nth_error l p) as [w|] eqn:E; [destruct w; reflexivity|]. apply nth_error_None in E. lia.
Qed.
Lemma posns_repeat m : posns Qb (repeat Qb m) = seq 0 m.
Proof. unfold posns. rewrite repeat_length. rewrite (filter_ext_in _ (fun _ => true)); [induction (seq 0 m); cbn; congruence|]. intros p Hp. apply in_seq in Hp. rewrite nth_error_repeat by lia. reflexivity. Qed.
Lemma map_nth_seq A (d : A) xs : map (fun i => nth i xs d) (seq 0 (List.length xs)) = xs.
Proof. induction xs as [|x xs IH]; [reflexivity|]. cbn. f_equal. now rewrite <- seq_shift, map_map. Qed.
Lemma flat_rank A (F : nat -> nat -> list A) (g : nat -> nat) xs : map g xs = seq 0 (List.length xs) -> flat_map (fun p => F p (g p)) xs = flat_map (fun i => F (nth i xs 0) i) (seq 0 (List.length xs)).
Proof.
  intro H. rewrite <- (map_nth_seq 0 xs) at 1. rewrite flat_map_concat_map, map_map, <- flat_map_concat_map.
  rewrite !flat_map_concat_map. f_equal. apply map_ext_in. intros i Hi. apply in_seq in Hi. f_equal.
  assert (E : nth i (map g xs) (g 0) = nth i (seq 0 (List.length xs)) (g 0)) by now rewrite H. rewrite map_nth, seq_nth in E by lia. exact E.
Qed.
Lemma map_rank A (F : nat -> nat -> A) (g : nat -> nat) xs : map g xs = seq 0 (List.length xs) -> map (fun p => F p (g p)) xs = map (fun i => F (nth i xs 0) i) (seq 0 (List.length xs)).
Proof. intro H. assert (E := flat_rank (fun p i => [F p i]) H). assert (S : forall (f : nat -> A) l, flat_map (fun p => [f p]) l = map f l) by (induction l; cbn; congruence). rewrite (S (fun p => F p (g p))), (S (fun i => F (nth i xs 0) i)) in E. exact E. Qed.

(** ** connecting a list of pairs *)
Definition connects (ps : list (leg * leg)) (cs : list (leg * leg)) : res (list (leg * leg)) := foldM (fun cs p => connect cs (fst p) (snd p)) ps cs.
Lemma connects_list ps : forall cs, NoDup (ends (cs ++ ps)) -> connects ps cs = Ok (cs ++ ps).
Proof.
  induction ps as [|[a b] ps IH]; intros cs N; cbn; [now rewrite app_nil_r|]. rewrite ends_app in N. cbn [ends flat_map fst snd] in N.
  assert (P : Permutation (ends cs ++ [a; b] ++ flat_map (fun c => [fst c; snd c]) ps) ((a :: b :: ends cs) ++ flat_map (fun c => [fst c; snd c]) ps)).
  { cbn [app]. rewrite <- Permutation_middle, <- Permutation_middle. reflexivity. }
  rewrite P in N. rewrite connect_ok by now apply NoDup_app_remove_r in N. cbn [bind]. change (connects ps (cs ++ [(a, b)]) = Ok (cs ++ (a, b) :: ps)). rewrite IH; [now rewrite <- app_assoc|].
  rewrite <- app_assoc, ends_app. cbn [ends flat_map app fst snd]. rewrite P. exact N.
Qed.
Lemma connects_app a b cs : connects (a ++ b) cs = do cs <- connects a cs; connects b cs. Proof. apply foldM_app. Qed.
Lemma fold_connects (g : list (leg * leg) -> nat -> res (list (leg * leg))) (P : nat -> list (leg * leg)) l : (forall i cs, In i l -> g cs i = connects (P i) cs) -> forall cs, foldM g l cs = connects (flat_map P l) cs.
Proof. intro H. induction l as [|i l IH]; intro cs; [reflexivity|]. cbn [foldM flat_map]. rewrite connects_app, H by now left. destruct (connects (P i) cs); [|reflexivity]. cbn [bind]. apply IH. intros. apply H. now right. Qed.
Lemma ends_map (f g : nat -> leg) xs : Permutation (ends (flat_map (fun i => [(f i, g i)]) xs)) (map f xs ++ map g xs).
Proof. induction xs as [|x xs IH]; [reflexivity|]. cbn. constructor. rewrite <- Permutation_middle. constructor. exact IH. Qed.
Lemma ends_map2 (f g f' g' : nat -> leg) xs : Permutation (ends (flat_map (fun i => [(f i, g i); (f' i, g' i)]) xs)) ((map f xs ++ map f' xs) ++ map g xs ++ map g' xs).
Proof.
  induction xs as [|x xs IH]; [reflexivity|]. cbn -[app]. rewrite ends_app. rewrite IH. cbn [ends flat_map app fst snd]. constructor.
  change (map f xs ++ f' x :: map f' xs) with (map f xs ++ [f' x] ++ map f' xs). change (g x :: map g xs ++ g' x :: map g' xs) with ([g x] ++ map g xs ++ [g' x] ++ map g' xs).
  change (g x :: f' x :: g' x :: (map f xs ++ map f' xs) ++ map g xs ++ map g' xs) with ([g x] ++ [f' x] ++ [g' x] ++ (map f xs ++ map f' xs) ++ map g xs ++ map g' xs). perm.
Qed.
Lemma perm_flat A B (f : A -> list B) l l' : Permutation l l' -> Permutation (flat_map f l) (flat_map f l').
Proof. intro H. now apply Permutation_flat_map. Qed.
Lemma flat_ext_in A B (f g : A -> list B) l : (forall x, In x l -> f x = g x) -> flat_map f l = flat_map g l.
Proof. intro H. rewrite !flat_map_concat_map. f_equal. now apply map_ext_in. Qed.

(** ** registers *)
Section Run.
  Variables (dom : list wire) (ls : list (list wire * qbox * list wire)).
  Notation qs := (qsource dom ls).
  Definition reg (w : wire) (c t : nat) (T : list wire) : list leg := map (fun p => qs t p c) (posns w T).
  Definition legs_of (t : nat) : list leg :=
    match nth_error ls t with
    | Some (_, (QSwap _ _ | QDisc), _) | None => []
    | Some (_, b, _) => if q_mixed b then map (LNode t 0) (seq 0 (mixed_legs b))
                        else map (LNode t 1) (seq 0 (List.length (q_dom b) + List.length (q_cod b))) ++ map (LNode t 2) (seq 0 (List.length (q_dom b) + List.length (q_cod b)))
    end.
  Definition legs_to (t : nat) : list leg := (register 0 (wcount Bt dom) 1 ++ register 1 (wcount Qb dom) 1 ++ register 2 (wcount Qb dom) 1) ++ flat_map legs_of (seq 0 t).
  Lemma legs_of_node t e : In e (legs_of t) -> exists c k, e = LNode t c k.
  Proof.
    unfold legs_of. intro H. destruct (nth_error ls t) as [[[l b] r]|]; [|contradiction].
    assert (G : In e (if q_mixed b then map (LNode t 0) (seq 0 (mixed_legs b)) else map (LNode t 1) (seq 0 (List.length (q_dom b) + List.length (q_cod b))) ++ map (LNode t 2) (seq 0 (List.length (q_dom b) + List.length (q_cod b)))) -> exists c k, e = LNode t c k).
    { intro G. destruct (q_mixed b); [apply in_map_iff in G; destruct G as (k & <- & _); eauto|]. apply in_app_or in G. destruct G as [G|G]; apply in_map_iff in G; destruct G as (k & <- & _); eauto. }
    destruct b; try contradiction; apply G; exact H.
  Qed.
  Lemma node_nodup t c n m : NoDup (map (LNode t c) (seq m n)). Proof. apply FinFun.Injective_map_NoDup; [intros ? ? [= ->]; auto|apply seq_NoDup]. Qed.
  Lemma reg_nodup c n s : NoDup (register c n s). Proof. apply FinFun.Injective_map_NoDup; [intros ? ? [= ->]; auto|apply seq_NoDup]. Qed.
  Lemma legs_of_nodup t : NoDup (legs_of t).
  Proof.
    unfold legs_of. destruct (nth_error ls t) as [[[l b] r]|]; [|constructor].
    assert (G : NoDup (if q_mixed b then map (LNode t 0) (seq 0 (mixed_legs b)) else map (LNode t 1) (seq 0 (List.length (q_dom b) + List.length (q_cod b))) ++ map (LNode t 2) (seq 0 (List.length (q_dom b) + List.length (q_cod b))))).
    { destruct (q_mixed b); [apply node_nodup|]. apply NoDup_app; try apply node_nodup. intros e H1 H2. apply in_map_iff in H1. destruct H1 as (k & <- & _). apply in_map_iff in H2. destruct H2 as (k' & [=] & _). }
    destruct b; first [exact G|apply NoDup_nil].
  Qed.
  Lemma in_reg c n s e : In e (register c n s) -> exists i, e = LReg c i s. Proof. unfold register. intro H. apply in_map_iff in H. destruct H as (i & <- & _). eauto. Qed.
  Lemma regs_nodup n m s : NoDup (register 0 n s ++ register 1 m s ++ register 2 m s).
  Proof.
    repeat apply NoDup_app; try apply reg_nodup; intros e H1 H2; try (apply in_app_or in H2; destruct H2 as [H2|H2]); apply in_reg in H1; apply in_reg in H2; destruct H1 as [i ->], H2 as [j [=]].
  Qed.
  Lemma legs_nodup t : NoDup (legs_to t).
  Proof.
    unfold legs_to. apply NoDup_app; [apply regs_nodup| |].
    - generalize 0 at 1. induction t as [|t IH]; intro s; [constructor|]. cbn. apply NoDup_app; [apply legs_of_nodup|apply IH|]. intros e H1 H2. apply legs_of_node in H1. destruct H1 as (c & k & ->). apply in_flat_map in H2. destruct H2 as (u & Hu & H2).
      apply legs_of_node in H2. destruct H2 as (c' & k' & [= <- _ _]). apply in_seq in Hu. lia.
    - intros e H1 H2. apply in_flat_map in H2. destruct H2 as (u & _ & H2). apply legs_of_node in H2. destruct H2 as (c & k & ->). rewrite !in_app_iff in H1. destruct H1 as [H1|[H1|H1]]; apply in_reg in H1; destruct H1 as [i [=]].
  Qed.

  (** a layer *)
  Variables (t : nat) (l : list wire) (b : qbox) (r : list wire).
  Hypothesis E : nth_error ls t = Some (l, b, r).
  Let k := List.length l.
  Definition mid (w : wire) (c : nat) : list leg := map (fun p => qs t (List.length l + p) c) (posns w (q_dom b)).
  Definition rest (w : wire) (c : nat) : list leg := map (fun p => qs t (List.length l + List.length (q_dom b) + p) c) (posns w r).
  Definition fresh (w : wire) (c : nat) : list leg :=
    map (fun p => match b with QSwap _ _ => qs t (if p =? 0 then S (List.length l) else List.length l) c | _ => out_leg t b p c end) (posns w (q_cod b)).
  Lemma reg_now w c : reg w c t (l ++ q_dom b ++ r) = reg w c t l ++ mid w c ++ rest w c.
  Proof. unfold reg, mid, rest. rewrite !posns_app, !map_app, !map_map. do 2 f_equal. apply map_ext. intro p. now rewrite Nat.add_assoc. Qed.
  Lemma reg_next w c : reg w c (S t) (l ++ q_cod b ++ r) = reg w c t l ++ fresh w c ++ rest w c.
  Proof.
    unfold reg, fresh, rest. rewrite !posns_app, !map_app, !map_map. f_equal; [|f_equal].
    - apply map_ext_in. intros p Hp. apply posns_lt in Hp. cbn [qsource]. rewrite E. destruct (Nat.ltb_spec p (List.length l)); [reflexivity|lia].
    - apply map_ext_in. intros p Hp. apply posns_lt in Hp. cbn [qsource]. rewrite E. destruct (Nat.ltb_spec (List.length l + p) (List.length l)); [lia|]. destruct (Nat.ltb_spec (List.length l + p) (List.length l + List.length (q_cod b))); [|lia].
      destruct b; try (f_equal; lia). destruct (Nat.eqb_spec (List.length l + p) (List.length l)), (Nat.eqb_spec p 0); try lia; reflexivity.
    - apply map_ext_in. intros p Hp. cbn [qsource]. rewrite E. destruct (Nat.ltb_spec (List.length l + (List.length (q_cod b) + p)) (List.length l)); [lia|]. destruct (Nat.ltb_spec (List.length l + (List.length (q_cod b) + p)) (List.length l + List.length (q_cod b))); [lia|].
      f_equal. lia.
  Qed.
  Lemma len_reg w c : List.length (reg w c t l) = wcount w l. Proof. unfold reg. now rewrite map_length, posns_length. Qed.
  Lemma len_mid w c : List.length (mid w c) = wcount w (q_dom b). Proof. unfold mid. now rewrite map_length, posns_length. Qed.
  Lemma put_now w c x : put (wcount w l) (wcount w (q_dom b)) x (reg w c t (l ++ q_dom b ++ r)) = reg w c t l ++ x ++ rest w c.
  Proof.
    rewrite reg_now. unfold put. rewrite firstn_app, firstn_all2, len_reg, Nat.sub_diag by (rewrite len_reg; lia). rewrite app_nil_r. do 2 f_equal.
    rewrite app_assoc, skipn_app, skipn_all2, app_length, len_reg, len_mid, Nat.sub_diag by (rewrite app_length, len_reg, len_mid; lia). reflexivity.
  Qed.
  Lemma get_now w c i : i < wcount w (q_dom b) -> get (reg w c t (l ++ q_dom b ++ r)) (wcount w l + i) = Ok (nth i (mid w c) (LIn 0 0)).
  Proof.
    intro H. rewrite reg_now. unfold get. rewrite nth_error_app2, len_reg by (rewrite len_reg; lia). replace (wcount w l + i - wcount w l) with i by lia. rewrite nth_error_app1 by (rewrite len_mid; auto).
    rewrite (nth_error_nth' _ (LIn 0 0)) by (rewrite len_mid; auto). reflexivity.
  Qed.
  Lemma nth_mid w c i : i < wcount w (q_dom b) -> nth i (mid w c) (LIn 0 0) = qs t (List.length l + nth i (posns w (q_dom b)) 0) c.
  Proof. intro H. unfold mid. rewrite (nth_indep _ _ ((fun p => qs t (List.length l + p) c) 0)) by (rewrite map_length, posns_length; auto). apply (map_nth (fun p => qs t (List.length l + p) c)). Qed.
  Lemma mid_seq w c : map (fun i => nth i (mid w c) (LIn 0 0)) (seq 0 (wcount w (q_dom b))) = mid w c.
  Proof. rewrite <- (len_mid w c). apply map_nth_seq. Qed.
  Definition state_at (nodes : list (nat * nat)) (cs : list (leg * leg)) (u : nat) (T : list wire) : mnet := MNet nodes cs (reg Bt 0 u T) (reg Qb 1 u T) (reg Qb 2 u T).
  Definition node_names : list (nat * nat) := match b with QSwap _ _ | QDisc => [] | _ => if q_mixed b then [(t, 0)] else [(t, 1); (t, 2)] end.
  (** bookkeeping shared by the boxes that make nodes *)
  Lemma pairs_ok cs ps inl outl : Permutation (ends cs ++ (reg Bt 0 t (l ++ q_dom b ++ r) ++ reg Qb 1 t (l ++ q_dom b ++ r) ++ reg Qb 2 t (l ++ q_dom b ++ r))) (legs_to t) ->
    Permutation (ends ps) ((mid Bt 0 ++ mid Qb 1 ++ mid Qb 2) ++ inl) -> Permutation (inl ++ outl) (legs_of t) -> Permutation outl (fresh Bt 0 ++ fresh Qb 1 ++ fresh Qb 2) ->
    connects ps cs = Ok (cs ++ ps) /\
    Permutation (ends (cs ++ ps) ++ (reg Bt 0 (S t) (l ++ q_cod b ++ r) ++ reg Qb 1 (S t) (l ++ q_cod b ++ r) ++ reg Qb 2 (S t) (l ++ q_cod b ++ r))) (legs_to (S t)).
  Proof.
    intros P P1 P2 P3. rewrite !reg_next. rewrite !reg_now in P.
    assert (EL : legs_to (S t) = legs_to t ++ legs_of t) by (unfold legs_to; rewrite seq_S, flat_map_app; cbn; now rewrite app_nil_r, app_assoc).
    assert (G : Permutation (ends (cs ++ ps) ++ ((reg Bt 0 t l ++ fresh Bt 0 ++ rest Bt 0) ++ (reg Qb 1 t l ++ fresh Qb 1 ++ rest Qb 1) ++ reg Qb 2 t l ++ fresh Qb 2 ++ rest Qb 2)) (legs_to (S t))).
    { rewrite EL, <- P, <- P2, P3, ends_app, P1. perm. }
    split; [|exact G]. apply connects_list. assert (N := legs_nodup (S t)). rewrite <- G in N. now apply NoDup_app_remove_r in N.
  Qed.

  Lemma swap_now w c u v : mid w c = [u; v] -> wcount w (q_dom b) = 2 -> swap_at (wcount w l) (reg w c t (l ++ q_dom b ++ r)) = Ok (reg w c t l ++ [v; u] ++ rest w c).
  Proof.
    intros M W. unfold swap_at. rewrite <- (Nat.add_0_r (wcount w l)) at 1. rewrite !get_now by (rewrite W; lia). rewrite M. cbn [bind nth]. f_equal.
    rewrite <- (put_now w c [v; u]). unfold put. now rewrite W.
  Qed.
  Definition goal_of (cs : list (leg * leg)) (nodes : list (nat * nat)) : Prop :=
    exists ps, Permutation ps (mix_wires dom ls t) /\
      mix_step (state_at nodes cs t (l ++ q_dom b ++ r)) (t, (l, b, r)) = Ok (state_at (nodes ++ node_names) (cs ++ ps) (S t) (l ++ q_cod b ++ r)) /\
      Permutation (ends (cs ++ ps) ++ (reg Bt 0 (S t) (l ++ q_cod b ++ r) ++ reg Qb 1 (S t) (l ++ q_cod b ++ r) ++ reg Qb 2 (S t) (l ++ q_cod b ++ r))) (legs_to (S t)).
  Definition inv_of (cs : list (leg * leg)) : Prop := Permutation (ends cs ++ (reg Bt 0 t (l ++ q_dom b ++ r) ++ reg Qb 1 t (l ++ q_dom b ++ r) ++ reg Qb 2 t (l ++ q_dom b ++ r))) (legs_to t).
  Lemma step_swap_q cs nodes : b = QSwap Qb Qb -> inv_of cs -> goal_of cs nodes.
  Proof.
    intros Hb P. exists []. unfold goal_of, inv_of, state_at in *.
    assert (M : forall c, mid Qb c = [qs t (k + 0) c; qs t (k + 1) c]) by (intro c; unfold mid; rewrite Hb; reflexivity).
    assert (F : forall c, fresh Qb c = [qs t (k + 1) c; qs t (k + 0) c]) by (intro c; unfold fresh; rewrite Hb; cbn; rewrite Nat.add_1_r, Nat.add_0_r; reflexivity).
    assert (MB : forall c, mid Bt c = []) by (intro c; unfold mid; rewrite Hb; reflexivity). assert (FB : forall c, fresh Bt c = []) by (intro c; unfold fresh; rewrite Hb; reflexivity).
    split; [unfold mix_wires; rewrite E, Hb; reflexivity|]. split.
    - unfold mix_step. cbn [gl_left gl_box fst snd m_nodes m_conn m_c m_q1 m_q2]. replace (is_qswap b && q_classical b) with false by (rewrite Hb; reflexivity). replace (is_discard b) with false by (rewrite Hb; reflexivity). replace (q_mixed b) with false by (rewrite Hb; reflexivity). replace (is_qswap b) with true by (rewrite Hb; reflexivity).
      rewrite !(@swap_now Qb _ (qs t (k + 0) _) (qs t (k + 1) _)) by (first [apply M|rewrite Hb; reflexivity]). cbn [bind]. unfold node_names. rewrite Hb. rewrite !app_nil_r. rewrite <- Hb. rewrite !reg_next, !F, FB, reg_now, MB. reflexivity.
    - rewrite app_nil_r. rewrite !reg_next, !F, FB. rewrite !reg_now, !M, MB in P.
      assert (EL : legs_to (S t) = legs_to t) by (unfold legs_to; rewrite seq_S, flat_map_app; cbn; unfold legs_of at 2; rewrite E, Hb, !app_nil_r; reflexivity). rewrite EL, <- P.
      change [qs t (k + 1) 1; qs t (k + 0) 1] with ([qs t (k + 1) 1] ++ [qs t (k + 0) 1]). change [qs t (k + 0) 1; qs t (k + 1) 1] with ([qs t (k + 0) 1] ++ [qs t (k + 1) 1]).
      change [qs t (k + 1) 2; qs t (k + 0) 2] with ([qs t (k + 1) 2] ++ [qs t (k + 0) 2]). change [qs t (k + 0) 2; qs t (k + 1) 2] with ([qs t (k + 0) 2] ++ [qs t (k + 1) 2]). perm.
  Qed.
  Lemma step_swap_c cs nodes : b = QSwap Bt Bt -> wcount Bt l = wcount Qb l -> inv_of cs -> goal_of cs nodes.
  Proof.
    intros Hb HW P. exists []. unfold goal_of, inv_of, state_at in *.
    assert (M : forall c, mid Bt c = [qs t (k + 0) c; qs t (k + 1) c]) by (intro c; unfold mid; rewrite Hb; reflexivity).
    assert (F : forall c, fresh Bt c = [qs t (k + 1) c; qs t (k + 0) c]) by (intro c; unfold fresh; rewrite Hb; cbn; rewrite Nat.add_1_r, Nat.add_0_r; reflexivity).
    assert (MB : forall c, mid Qb c = []) by (intro c; unfold mid; rewrite Hb; reflexivity). assert (FB : forall c, fresh Qb c = []) by (intro c; unfold fresh; rewrite Hb; reflexivity).
    split; [unfold mix_wires; rewrite E, Hb; reflexivity|]. split.
    - unfold mix_step. cbn [gl_left gl_box fst snd m_nodes m_conn m_c m_q1 m_q2]. replace (is_qswap b && q_classical b) with true by (rewrite Hb; reflexivity).
      rewrite <- HW. rewrite (@swap_now Bt _ (qs t (k + 0) _) (qs t (k + 1) _)) by (first [apply M|rewrite Hb; reflexivity]). cbn [bind]. unfold node_names. rewrite Hb. rewrite !app_nil_r. rewrite <- Hb. rewrite !reg_next, !F, !FB, !reg_now, !MB. reflexivity.
    - rewrite app_nil_r. rewrite !reg_next, !F, !FB. rewrite !reg_now, !M, !MB in P.
      assert (EL : legs_to (S t) = legs_to t) by (unfold legs_to; rewrite seq_S, flat_map_app; cbn; unfold legs_of at 2; rewrite E, Hb, !app_nil_r; reflexivity). rewrite EL, <- P.
      change [qs t (k + 1) 0; qs t (k + 0) 0] with ([qs t (k + 1) 0] ++ [qs t (k + 0) 0]). change [qs t (k + 0) 0; qs t (k + 1) 0] with ([qs t (k + 0) 0] ++ [qs t (k + 1) 0]). perm.
  Qed.
  Lemma step_disc cs nodes : b = QDisc -> inv_of cs -> goal_of cs nodes.
  Proof.
    intros Hb P. exists [(qs t k 1, qs t k 2)]. unfold inv_of, goal_of, state_at in *.
    assert (M : forall c, mid Qb c = [qs t k c]) by (intro c; unfold mid; rewrite Hb; cbn; fold k; now rewrite Nat.add_0_r). assert (MB : forall c, mid Bt c = []) by (intro c; unfold mid; rewrite Hb; reflexivity).
    assert (F : forall w c, fresh w c = []) by (intros w c; unfold fresh; rewrite Hb; reflexivity).
    destruct (@pairs_ok cs [(qs t k 1, qs t k 2)] [] []) as [C P']; auto.
    { rewrite !M, MB. cbn. constructor. constructor. constructor. }
    { unfold legs_of. rewrite E, Hb. reflexivity. }
    { now rewrite !F. }
    split; [unfold mix_wires; rewrite E, Hb; reflexivity|]. split; [|exact P'].
    unfold mix_step. cbn [gl_left gl_box fst snd m_nodes m_conn m_c m_q1 m_q2]. replace (is_qswap b && q_classical b) with false by (rewrite Hb; reflexivity). replace (is_discard b) with true by (rewrite Hb; reflexivity).
    rewrite <- (Nat.add_0_r (wcount Qb l)). rewrite !get_now by (rewrite Hb; cbn; lia). rewrite !M. cbn [nth bind]. unfold connects in C. cbn [foldM fst snd] in C.
    destruct (connect cs (qs t k 1) (qs t k 2)) as [cs'|]; [|discriminate]. cbn [bind] in C |- *. assert (C' : cs' = cs ++ [(qs t k 1, qs t k 2)]) by congruence. rewrite C'. rewrite Nat.add_0_r.
    assert (W1 : 1 = wcount Qb (q_dom b)) by (rewrite Hb; reflexivity). assert (PN : forall c, put (wcount Qb l) 1 [] (reg Qb c t (l ++ q_dom b ++ r)) = reg Qb c t l ++ [] ++ rest Qb c) by (intro c; rewrite <- (put_now Qb c []), <- W1; reflexivity). rewrite !PN. unfold node_names. rewrite Hb, app_nil_r, <- Hb. rewrite !reg_next, !F, reg_now, MB. reflexivity.
  Qed.
  Lemma mix_wires_eq : is_qswap b = false -> is_discard b = false -> mix_wires dom ls t =
    flat_map (fun p => match nth_error (q_dom b) p with Some w => map (fun c => (qs t (List.length l + p) c, in_leg t b p c)) (copies w) | None => [] end) (seq 0 (List.length (q_dom b))).
  Proof. intros H1 H2. unfold mix_wires. rewrite E. destruct b; try discriminate; reflexivity. Qed.
  Lemma legs_mixed : mixed_legs b = wcount Bt (q_dom b) + 2 * wcount Qb (q_dom b) + wcount Bt (q_cod b) + 2 * wcount Qb (q_cod b).
  Proof. destruct b; reflexivity. Qed.
  Lemma fresh_mixed w c o : is_qswap b = false -> q_mixed b = true -> (forall p, In p (posns w (q_cod b)) -> out_leg t b p c = LNode t 0 (o + rank (q_cod b) p)) -> fresh w c = map (LNode t 0) (seq o (wcount w (q_cod b))).
  Proof.
    intros H1 H2 H3. unfold fresh. transitivity (map (fun p => LNode t 0 (o + rank (q_cod b) p)) (posns w (q_cod b))).
    - apply map_ext_in. intros p Hp. rewrite <- (H3 p Hp). destruct b; try discriminate; reflexivity.
    - rewrite <- (map_map (rank (q_cod b)) (fun i => LNode t 0 (o + i))), rank_posns. symmetry. apply (map_seq_from (LNode t 0)).
  Qed.
  Lemma step_mixed cs nodes : is_qswap b = false -> is_discard b = false -> q_mixed b = true -> inv_of cs -> goal_of cs nodes.
  Proof.
    intros H1 H2 H3 P. unfold goal_of, inv_of, state_at in *. set (cd := wcount Bt (q_dom b)) in *. set (qd := wcount Qb (q_dom b)) in *. set (cc := wcount Bt (q_cod b)). set (qc := wcount Qb (q_cod b)).
    set (P1 := flat_map (fun i => [(nth i (mid Bt 0) (LIn 0 0), LNode t 0 i)]) (seq 0 cd)).
    set (P2 := flat_map (fun i => [(nth i (mid Qb 1) (LIn 0 0), LNode t 0 (cd + i)); (nth i (mid Qb 2) (LIn 0 0), LNode t 0 (cd + qd + i))]) (seq 0 qd)).
    assert (F0 : fresh Bt 0 = map (LNode t 0) (seq (cd + 2 * qd) cc)) by (apply fresh_mixed; auto; intros p Hp; unfold out_leg; rewrite H3; reflexivity).
    assert (F1 : fresh Qb 1 = map (LNode t 0) (seq (cd + 2 * qd + cc) qc)) by (apply fresh_mixed; auto; intros p Hp; unfold out_leg; rewrite H3; fold cd qd cc qc; f_equal; lia).
    assert (F2 : fresh Qb 2 = map (LNode t 0) (seq (cd + 2 * qd + cc + qc) qc)) by (apply fresh_mixed; auto; intros p Hp; unfold out_leg; rewrite H3; fold cd qd cc qc; f_equal; lia).
    assert (LG : mixed_legs b = cd + 2 * qd + cc + 2 * qc) by apply legs_mixed.
    destruct (@pairs_ok cs (P1 ++ P2) (map (LNode t 0) (seq 0 (cd + 2 * qd))) (fresh Bt 0 ++ fresh Qb 1 ++ fresh Qb 2)) as [C P']; auto.
    { rewrite ends_app. unfold P1, P2. rewrite (ends_map (fun i => nth i (mid Bt 0) (LIn 0 0)) (LNode t 0)).
      rewrite (ends_map2 (fun i => nth i (mid Qb 1) (LIn 0 0)) (fun i => LNode t 0 (cd + i)) (fun i => nth i (mid Qb 2) (LIn 0 0)) (fun i => LNode t 0 (cd + qd + i))).
      unfold cd at 1, qd at 1 2. rewrite !mid_seq. replace (cd + 2 * qd) with (cd + (qd + qd)) by lia. rewrite !seq_app, !map_app.
      rewrite <- (map_seq_from (LNode t 0) qd cd), <- (map_seq_from (LNode t 0) qd (cd + qd)). cbn [Nat.add]. perm. }
    { unfold legs_of. rewrite E. assert (EQ : match b with QSwap _ _ | QDisc => [] | _ => if q_mixed b then map (LNode t 0) (seq 0 (mixed_legs b)) else map (LNode t 1) (seq 0 (List.length (q_dom b) + List.length (q_cod b))) ++ map (LNode t 2) (seq 0 (List.length (q_dom b) + List.length (q_cod b))) end = map (LNode t 0) (seq 0 (mixed_legs b))).
      { rewrite H3. destruct b; try discriminate; reflexivity. }
      rewrite EQ, F0, F1, F2, LG. replace (cd + 2 * qd + cc + 2 * qc) with (cd + 2 * qd + (cc + (qc + qc))) by lia. rewrite !seq_app, !map_app. rewrite !Nat.add_assoc. cbn [Nat.add]. reflexivity. }
    exists (P1 ++ P2). split; [|split; [|exact P']].
    - rewrite (mix_wires_eq H1 H2). rewrite (perm_flat _ (posns_all (q_dom b))), flat_map_app. apply Permutation_app.
      + rewrite (@flat_ext_in _ _ _ (fun p => [(qs t (List.length l + p) 0, LNode t 0 (rank (q_dom b) p))]) (posns Bt (q_dom b))).
        2:{ intros p Hp. apply posns_lt in Hp. destruct Hp as [_ ->]. cbn. unfold in_leg. rewrite H3. reflexivity. }
        rewrite (@flat_rank _ (fun p i => [(qs t (List.length l + p) 0, LNode t 0 i)]) (rank (q_dom b))) by (rewrite rank_posns, posns_length; reflexivity). rewrite posns_length. unfold P1. fold cd.
        rewrite (@flat_ext_in _ _ (fun i => [(nth i (mid Bt 0) (LIn 0 0), LNode t 0 i)]) (fun i => [(qs t (List.length l + nth i (posns Bt (q_dom b)) 0) 0, LNode t 0 i)])); [reflexivity|].
        intros i Hi. apply in_seq in Hi. now rewrite nth_mid by (fold cd; lia).
      + rewrite (@flat_ext_in _ _ _ (fun p => [(qs t (List.length l + p) 1, LNode t 0 (cd + rank (q_dom b) p)); (qs t (List.length l + p) 2, LNode t 0 (cd + qd + rank (q_dom b) p))]) (posns Qb (q_dom b))).
        2:{ intros p Hp. apply posns_lt in Hp. destruct Hp as [_ ->]. cbn [copies map]. unfold in_leg. rewrite H3. fold cd qd. do 2 f_equal; [f_equal; lia|]. f_equal. f_equal. f_equal. lia. }
        rewrite (@flat_rank _ (fun p i => [(qs t (List.length l + p) 1, LNode t 0 (cd + i)); (qs t (List.length l + p) 2, LNode t 0 (cd + qd + i))]) (rank (q_dom b))) by (rewrite rank_posns, posns_length; reflexivity). rewrite posns_length. unfold P2. fold qd.
        match goal with |- Permutation ?x ?y => replace x with y; [reflexivity|] end. apply flat_ext_in. intros i Hi. apply in_seq in Hi. now rewrite !nth_mid by (fold qd; lia).
    - unfold mix_step. cbn [gl_left gl_box fst snd m_nodes m_conn m_c m_q1 m_q2]. rewrite H1, H2, H3. cbn [andb]. fold cd qd cc qc.
      rewrite (@fold_connects _ (fun i => [(nth i (mid Bt 0) (LIn 0 0), LNode t 0 i)])).
      2:{ intros i cs' Hi. apply in_seq in Hi. rewrite get_now by (fold cd; lia). unfold node_leg. destruct (Nat.ltb_spec i (mixed_legs b)); [|lia]. unfold connects. cbn [bind foldM fst snd]. destruct (connect _ _ _); reflexivity. }
      fold P1. rewrite connects_app in C. destruct (connects P1 cs) as [cs1|]; [|discriminate]. cbn [bind] in C |- *.
      rewrite (@fold_connects _ (fun i => [(nth i (mid Qb 1) (LIn 0 0), LNode t 0 (cd + i)); (nth i (mid Qb 2) (LIn 0 0), LNode t 0 (cd + qd + i))])).
      2:{ intros i cs' Hi. apply in_seq in Hi. rewrite !get_now by (fold qd; lia). unfold node_leg. destruct (Nat.ltb_spec (cd + i) (mixed_legs b)); [|lia]. destruct (Nat.ltb_spec (cd + qd + i) (mixed_legs b)); [|lia].
          unfold connects. cbn [bind foldM fst snd]. destruct (connect cs' _ _); [|reflexivity]. cbn [bind]. destruct (connect _ _ _); reflexivity. }
      fold P2. destruct (connects P2 cs1) as [cs2|]; [|discriminate]. cbn [bind]. assert (C' : cs2 = cs ++ P1 ++ P2) by congruence. rewrite C'.
      assert (PC : forall c x, put (wcount Bt l) cd x (reg Bt c t (l ++ q_dom b ++ r)) = reg Bt c t l ++ x ++ rest Bt c) by (intros; apply put_now). assert (PQ : forall c x, put (wcount Qb l) qd x (reg Qb c t (l ++ q_dom b ++ r)) = reg Qb c t l ++ x ++ rest Qb c) by (intros; apply put_now). rewrite PC, !PQ. rewrite !reg_next, F0, F1, F2.
      assert (NN : node_names = [(t, 0)]). { unfold node_names. rewrite H3. destruct b; try discriminate; reflexivity. }
      rewrite NN. unfold node_legs, node_rest. rewrite LG.
      assert (FS : forall n a m, n <= m -> firstn n (seq a m) = seq a n). { clear. induction n as [|n IH]; intros a m H; [reflexivity|]. destruct m; [lia|]. cbn. rewrite IH by lia. reflexivity. }
      rewrite !FS by lia. replace (cd + 2 * qd + cc + 2 * qc - (cd + 2 * qd + cc + qc)) with qc by lia. reflexivity.
  Qed.

  Lemma step_pure cs nodes : is_qswap b = false -> is_discard b = false -> q_mixed b = false -> q_dom b = repeat Qb (List.length (q_dom b)) -> q_cod b = repeat Qb (List.length (q_cod b)) -> inv_of cs -> goal_of cs nodes.
  Proof.
    intros H1 H2 H3 HD HC P. unfold goal_of, inv_of, state_at in *. set (m := List.length (q_dom b)) in *. set (n := List.length (q_cod b)) in *.
    assert (WD : wcount Qb (q_dom b) = m) by (rewrite HD; apply wcount_repeat). assert (PD : posns Qb (q_dom b) = seq 0 m) by (rewrite HD; apply posns_repeat). assert (PC : posns Qb (q_cod b) = seq 0 n) by (rewrite HC; apply posns_repeat).
    assert (NB : forall j, wcount Bt (repeat Qb j) = 0) by (induction j; auto). assert (PB : forall x, wcount Bt x = 0 -> posns Bt x = []) by (intros x Hx; rewrite <- posns_length in Hx; destruct (posns Bt x); [auto|discriminate]).
    assert (MB : mid Bt 0 = []) by (unfold mid; rewrite PB; [auto|rewrite HD; apply NB]). assert (FB : fresh Bt 0 = []) by (unfold fresh; rewrite PB; [auto|rewrite HC; apply NB]).
    assert (F : forall c, fresh Qb c = map (LNode t c) (seq m n)).
    { intro c. unfold fresh. rewrite PC, (map_seq_from (LNode t c)). apply map_ext. intro p. transitivity (out_leg t b p c); [destruct b; try discriminate; reflexivity|]. unfold out_leg. rewrite H3. reflexivity. }
    set (P2 := flat_map (fun i => [(nth i (mid Qb 1) (LIn 0 0), LNode t 1 i); (nth i (mid Qb 2) (LIn 0 0), LNode t 2 i)]) (seq 0 m)).
    destruct (@pairs_ok cs P2 (map (LNode t 1) (seq 0 m) ++ map (LNode t 2) (seq 0 m)) (fresh Bt 0 ++ fresh Qb 1 ++ fresh Qb 2)) as [C P']; auto.
    { unfold P2. rewrite (ends_map2 (fun i => nth i (mid Qb 1) (LIn 0 0)) (fun i => LNode t 1 i) (fun i => nth i (mid Qb 2) (LIn 0 0)) (fun i => LNode t 2 i)). rewrite <- WD, !mid_seq, MB. reflexivity. }
    { rewrite FB, !F. unfold legs_of. rewrite E. assert (EQ : match b with QSwap _ _ | QDisc => [] | _ => if q_mixed b then map (LNode t 0) (seq 0 (mixed_legs b)) else map (LNode t 1) (seq 0 (List.length (q_dom b) + List.length (q_cod b))) ++ map (LNode t 2) (seq 0 (List.length (q_dom b) + List.length (q_cod b))) end = map (LNode t 1) (seq 0 (m + n)) ++ map (LNode t 2) (seq 0 (m + n))).
      { rewrite H3. unfold m, n. destruct b; try discriminate; reflexivity. }
      rewrite EQ, !seq_app, !map_app. cbn [app Nat.add]. perm. }
    exists P2. split; [|split; [|exact P']].
    - rewrite (mix_wires_eq H1 H2). fold m. unfold P2. match goal with |- Permutation ?x ?y => replace x with y; [reflexivity|] end. apply flat_ext_in. intros i Hi. apply in_seq in Hi.
      rewrite HD at 1. rewrite nth_error_repeat by lia. cbn [copies map]. rewrite !nth_mid by (rewrite WD; lia). rewrite PD, seq_nth by lia. unfold in_leg. rewrite H3. reflexivity.
    - unfold mix_step. cbn [gl_left gl_box fst snd m_nodes m_conn m_c m_q1 m_q2]. rewrite H1, H2, H3. cbn [andb]. fold m n.
      rewrite (@fold_connects _ (fun i => [(nth i (mid Qb 1) (LIn 0 0), LNode t 1 i); (nth i (mid Qb 2) (LIn 0 0), LNode t 2 i)])).
      2:{ intros i cs' Hi. apply in_seq in Hi. rewrite !get_now by (rewrite WD; lia). unfold node_leg. destruct (Nat.ltb_spec i (m + n)); [|lia].
          unfold connects. cbn [bind foldM fst snd]. destruct (connect cs' _ _); [|reflexivity]. cbn [bind]. destruct (connect _ _ _); reflexivity. }
      fold P2. rewrite C. cbn [bind].
      assert (PQ : forall c x, put (wcount Qb l) m x (reg Qb c t (l ++ q_dom b ++ r)) = reg Qb c t l ++ x ++ rest Qb c) by (intros; rewrite <- WD; apply put_now). rewrite !PQ. rewrite !reg_next, FB, !F, (reg_now Bt), MB.
      assert (NN : node_names = [(t, 1); (t, 2)]). { unfold node_names. rewrite H3. destruct b; try discriminate; reflexivity. }
      rewrite NN. unfold node_rest. replace (m + n - m) with n by lia. reflexivity.
  Qed.
  Lemma mix_step_ok cs nodes : good_layer (l, b, r) -> inv_of cs -> goal_of cs nodes.
  Proof.
    intros G P. destruct (is_qswap b) eqn:H1.
    - assert (exists x y, b = QSwap x y) as (x & y & Hb) by (destruct b; try discriminate; eauto). rewrite Hb in G. cbn in G. destruct x, y; try contradiction; [apply step_swap_q|apply step_swap_c]; auto.
    - destruct (is_discard b) eqn:H2; [apply step_disc; auto; destruct b; try discriminate; reflexivity|].
      assert (G' : q_mixed b = true \/ (q_dom b = repeat Qb (List.length (q_dom b)) /\ q_cod b = repeat Qb (List.length (q_cod b)))) by (destruct b; try discriminate; exact G).
      destruct (q_mixed b) eqn:H3; [apply step_mixed; auto|]. destruct G' as [G'|[G1 G2]]; [discriminate|]. apply step_pure; auto.
  Qed.
End Run.
Lemma names_step (ls : list (list wire * qbox * list wire)) t l b r : nth_error ls t = Some (l, b, r) -> (match nth_error ls t with Some (_, (QSwap _ _ | QDisc), _) | None => [] | Some (_, b, _) => if q_mixed b then [(t, 0)] else [(t, 1); (t, 2)] end) = node_names t b.
Proof. intros ->. reflexivity. Qed.
Lemma mix_run dom (ls : list (list wire * qbox * list wire)) : Forall good_layer ls -> forall post pre d c cs, ls = pre ++ post -> gchain q_dom q_cod d post c ->
  let T := List.length pre in
  Permutation cs (flat_map (mix_wires dom ls) (seq 0 T)) ->
  Permutation (ends cs ++ (reg dom ls Bt 0 T d ++ reg dom ls Qb 1 T d ++ reg dom ls Qb 2 T d)) (legs_to dom ls T) ->
  forall nodes, nodes = flat_map (fun t => match nth_error ls t with Some (_, (QSwap _ _ | QDisc), _) | None => [] | Some (_, b, _) => if q_mixed b then [(t, 0)] else [(t, 1); (t, 2)] end) (seq 0 T) ->
  exists cs', foldM mix_step (enumerate T post) (state_at dom ls nodes cs T d) = Ok (state_at dom ls (mix_nodes ls) cs' (List.length ls) c) /\
    Permutation cs' (flat_map (mix_wires dom ls) (seq 0 (List.length ls))) /\
    Permutation (ends cs' ++ (reg dom ls Bt 0 (List.length ls) c ++ reg dom ls Qb 1 (List.length ls) c ++ reg dom ls Qb 2 (List.length ls) c)) (legs_to dom ls (List.length ls)).
Proof.
  intro FG. induction post as [|[[l b] r] post IH]; intros pre d c cs E Hc T PC PL nodes EN.
  - cbn in Hc. subst d. rewrite app_nil_r in E. subst pre. exists cs. split; [|split; auto]. cbn. rewrite EN. reflexivity.
  - cbn [gchain] in Hc. destruct Hc as [-> Hc]. assert (Et : nth_error ls T = Some (l, b, r)) by (unfold T; rewrite E, nth_error_app2, Nat.sub_diag by auto; reflexivity).
    assert (G : good_layer (l, b, r)) by (rewrite Forall_forall in FG; apply FG; rewrite E; apply in_or_app; right; now left).
    destruct (@mix_step_ok dom ls T l b r Et cs nodes G PL) as (ps & W & S1 & S2). cbn [enumerate foldM]. rewrite S1. cbn [bind].
    specialize (IH (pre ++ [(l, b, r)]) (l ++ q_cod b ++ r) c (cs ++ ps)). rewrite app_length in IH. cbn [List.length] in IH. rewrite Nat.add_1_r in IH. apply IH; auto.
    + now rewrite <- app_assoc.
    + rewrite seq_S, flat_map_app. cbn [flat_map]. rewrite app_nil_r. apply Permutation_app; auto.
    + rewrite seq_S, flat_map_app, EN. cbn [flat_map]. rewrite app_nil_r. f_equal. change (0 + List.length pre) with T. now rewrite (names_step Et).
Qed.
Lemma mixed_net_ok d s c : gtyped q_dom q_cod d s c -> Forall good_layer (glayers d) ->
  exists conns, mixed_net d = Ok (mix_nodes (glayers d), conns, (register 0 (wcount Bt s) 0 ++ register 1 (wcount Qb s) 0 ++ register 2 (wcount Qb s) 0) ++ mix_open s (glayers d) (List.length (glayers d)) c) /\
    Permutation conns (flat_map (mix_wires s (glayers d)) (seq 0 (List.length (glayers d)))) /\
    NoDup (ends conns ++ (register 0 (wcount Bt s) 0 ++ register 1 (wcount Qb s) 0 ++ register 2 (wcount Qb s) 0) ++ mix_open s (glayers d) (List.length (glayers d)) c).
Proof.
  intros (W & <- & <-) G. set (ls := glayers d) in *. unfold mixed_net. fold ls. set (cn := wcount Bt (gdom d)). set (qn := wcount Qb (gdom d)).
  assert (R0 : forall w c, reg (gdom d) ls w c 0 (gdom d) = register c (wcount w (gdom d)) 1).
  { intros w c. unfold reg, register. cbn. rewrite <- (rank_posns w (gdom d)), map_map. reflexivity. }
  destruct (@mix_run (gdom d) ls G ls [] (gdom d) (gcod d) [] eq_refl W) with (nodes := @nil (nat * nat)) as (cs & S1 & S2 & S3); cbn [List.length seq flat_map]; auto.
  { rewrite !R0. unfold legs_to. cbn. now rewrite app_nil_r. }
  unfold state_at in S1. cbn [List.length] in S1. rewrite !R0 in S1. fold cn qn in S1. match goal with |- context [bind ?x _] => replace x with (@Ok mnet (MNet (mix_nodes ls) cs (reg (gdom d) ls Bt 0 (List.length ls) (gcod d)) (reg (gdom d) ls Qb 1 (List.length ls) (gcod d)) (reg (gdom d) ls Qb 2 (List.length ls) (gcod d)))) by (symmetry; exact S1) end. cbn [bind m_nodes m_conn m_c m_q1 m_q2]. exists cs. split; [reflexivity|]. split; [exact S2|].
  assert (N := legs_nodup (gdom d) ls (List.length ls)). rewrite <- S3 in N. 
  assert (N2 : NoDup ((register 0 cn 0 ++ register 1 qn 0 ++ register 2 qn 0) ++ (ends cs ++ (reg (gdom d) ls Bt 0 (List.length ls) (gcod d) ++ reg (gdom d) ls Qb 1 (List.length ls) (gcod d) ++ reg (gdom d) ls Qb 2 (List.length ls) (gcod d))))).
  { apply NoDup_app; auto; [apply regs_nodup|]. intros e H1 H2. apply (Permutation_in _ S3) in H2. unfold legs_to in H2. rewrite !in_app_iff in H1, H2.
    assert (exists c i, e = LReg c i 0) as (c & i & ->) by (destruct H1 as [H1|[H1|H1]]; apply in_reg in H1; destruct H1 as [i ->]; eauto).
    rewrite ?in_app_iff in H2. destruct H2 as [[H2|[H2|H2]]|H2]; try (apply in_reg in H2; destruct H2 as [j [=]]). apply in_flat_map in H2. destruct H2 as (u & _ & H2). apply legs_of_node in H2. destruct H2 as (c' & k & [=]). }
  eapply Permutation_NoDup; [|exact N2]. unfold mix_open, reg. perm.
Qed.

(** ** decomposition first *)
From Verif Require Import QSpec QFacts.
Lemma swaps_good ls : forall n (v v' : list bool), gchain q_dom q_cod (qubits n) ls (qubits n) -> grun is_swap ls v = Some v' -> Forall (fun x => gl_box x = QSwap Qb Qb) ls.
Proof.
  induction ls as [|[[l b] r] ls IH]; intros n v v' Hc Hr; [constructor|]. cbn [gchain grun] in Hc, Hr. destruct Hc as [E Hc]. destruct (is_swap b) eqn:Hb; [|discriminate].
  destruct b; try discriminate. cbn [q_dom q_cod] in E, Hc. destruct (skipn (List.length l) v) as [|x [|y w]]; try discriminate.
  assert (Q : forall z, In z (l ++ [a; b] ++ r) -> z = Qb) by (rewrite <- E; intros z Hz; now apply repeat_spec in Hz).
  assert (a = Qb) as -> by (apply Q; rewrite !in_app_iff; cbn; auto). assert (b = Qb) as -> by (apply Q; rewrite !in_app_iff; cbn; auto).
  constructor; [reflexivity|]. rewrite <- E in Hc. eapply IH; eauto.
Qed.
Lemma decompose_good c d m : on_qubits m c -> d <> 0%Z -> exists dg, decompose_ctl c d = Ok dg /\ qtyped dg (q_dom (QCtl c d)) (q_cod (QCtl c d)) /\
  Forall (fun x => gl_box x = QSwap Qb Qb \/ exists c', gl_box x = QCtl c' 1) (glayers dg).
Proof.
  intros OQ Hd. destruct (Z.eq_dec d 1) as [->|Hd1].
  - exists (qb (QCtl c 1)). split; [reflexivity|]. split; [apply gtyped_box|]. constructor; [right; cbn; eauto|constructor].
  - destruct (decompose_eq OQ Hd Hd1) as (P & dg & E & T & L & R). exists dg. split; auto. destruct OQ as [D C]. cbn [q_dom q_cod]. rewrite D, len_qubits. split; [exact T|].
    assert (W : gchain q_dom q_cod (qubits (m + Z.abs_nat d)) (glayers dg) (qubits (m + Z.abs_nat d))) by (destruct T as (W & D' & C'); unfold gwf in W; rewrite D', C' in W; exact W).
    rewrite L in W. apply gchain_app in W. destruct W as (t1 & W1 & W2). cbn [app gchain] in W2. destruct W2 as [-> _].
    assert (Q : q_dom (QCtl c 1) ++ qubits (Z.abs_nat d - 1) = qubits (m + Z.abs_nat d)). { cbn [q_dom]. rewrite D, len_qubits. unfold qubits. rewrite <- repeat_app. f_equal. change (Z.abs_nat 1) with 1. lia. }
    cbn [app] in W1. rewrite Q in W1. assert (S := swaps_good W1 (R (repeat false (m + Z.abs_nat d)) (repeat_length _ _))).
    rewrite L. apply Forall_app. split; [eapply Forall_impl; [|exact S]; auto|]. apply Forall_app. split; [constructor; [right; cbn; eauto|constructor]|].
    apply Forall_forall. intros x Hx. apply in_map_iff in Hx. destruct Hx as (y & <- & Hy). left. cbn. rewrite Forall_forall in S. rewrite (S y) by now apply in_rev. reflexivity.
Qed.
Lemma decompose_all_ok ls : forall s d c a, Forall source_ok ls -> gchain q_dom q_cod d ls c -> qtyped a s d -> Forall good_layer (glayers a) ->
  exists dg, foldM (fun a x => do s <- decompose (gl_box x); qthen a (qtensor (qtensor (qid (gl_left x)) s) (qid (gl_right x)))) ls a = Ok dg /\ qtyped dg s c /\ Forall good_layer (glayers dg).
Proof.
  induction ls as [|[[l b] r] ls IH]; intros s d c a F Hc Ta Ga; cbn [foldM].
  - cbn in Hc. subst d. eauto.
  - inversion F as [|? ? F1 F2]; subst. cbn [gchain] in Hc. destruct Hc as [-> Hc]. cbn [gl_box gl_left gl_right fst snd].
    assert (D : exists dg, decompose b = Ok dg /\ qtyped dg (q_dom b) (q_cod b) /\ Forall good_layer (map (gext l r) (glayers dg))).
    { assert (O : source_ok (l, b, r) -> (forall c d, b <> QCtl c d) -> good_layer (l, b, r) /\ decompose b = Ok (qb b)) by (intros H N; destruct b; try (split; [exact H|reflexivity]); exfalso; now apply (N b distance)).
      destruct b eqn:Hb; try (destruct (O F1) as [O1 O2]; [congruence|]; exists (qb b); rewrite Hb; split; [reflexivity|]; split; [apply gtyped_box|]; cbn; unfold gext; cbn; rewrite app_nil_r; constructor; [exact O1|constructor]).
      destruct F1 as [Hd [m OQ]]. destruct (decompose_good OQ Hd) as (dg & E1 & E2 & E3). exists dg. split; [exact E1|]. split; [exact E2|].
      apply Forall_forall. intros x Hx. apply in_map_iff in Hx. destruct Hx as ([[l1 b1] r1] & <- & Hy). rewrite Forall_forall in E3. specialize (E3 _ Hy). cbn in E3.
      destruct E3 as [->|[c' ->]]; cbn; auto. right. rewrite !repeat_length. auto. }
    destruct D as (dg & E1 & E2 & E3). rewrite E1. cbn [bind].
    assert (Tm : qtyped (qtensor (qtensor (qid l) dg) (qid r)) (l ++ q_dom b ++ r) (l ++ q_cod b ++ r)).
    { rewrite !app_assoc. apply gtyped_tensor; [apply gtyped_tensor; [apply gtyped_id|exact E2]|apply gtyped_id]. }
    destruct (gtyped_then QFacts.wire_eqb_ok Ta Tm) as (a' & E4 & T4 & L4). unfold qthen. rewrite E4. cbn [bind]. apply (IH s (l ++ q_cod b ++ r) c a'); auto.
    rewrite L4. apply Forall_app. split; auto. unfold qtensor, gtensor, qid, gid. cbn [glayers gdom gcod map app]. rewrite app_nil_r, map_map.
    rewrite (map_ext _ (gext l r)); [exact E3|]. intros [[l1 b1] r1]. unfold gext. cbn. now rewrite app_nil_r.
Qed.
Lemma mixed_to_tn_ok d s c : gtyped q_dom q_cod d s c -> Forall source_ok (glayers d) ->
  exists dg conns, decompose_all d = Ok dg /\ gtyped q_dom q_cod dg s c /\
    mixed_to_tn d = Ok (mix_nodes (glayers dg), conns, (register 0 (wcount Bt s) 0 ++ register 1 (wcount Qb s) 0 ++ register 2 (wcount Qb s) 0) ++ mix_open s (glayers dg) (List.length (glayers dg)) c) /\
    Permutation conns (flat_map (mix_wires s (glayers dg)) (seq 0 (List.length (glayers dg)))) /\
    NoDup (ends conns ++ (register 0 (wcount Bt s) 0 ++ register 1 (wcount Qb s) 0 ++ register 2 (wcount Qb s) 0) ++ mix_open s (glayers dg) (List.length (glayers dg)) c).
Proof.
  intros (W & Hs & Hc) F. unfold gwf in W. rewrite Hs, Hc in W. destruct (@decompose_all_ok (glayers d) s s c (qid s) F W) as (dg & E & T & G); [apply gtyped_id|constructor|].
  destruct (mixed_net_ok T G) as (conns & E1 & E2 & E3). exists dg, conns. unfold mixed_to_tn, decompose_all. rewrite Hs.
  assert (E' : foldM (fun a x => do s <- decompose (gl_box x); qthen a (qtensor (qtensor (qid (gl_left x)) s) (qid (gl_right x)))) (glayers d) (qid s) = Ok dg) by exact E. rewrite E'. cbn [bind]. auto.
Qed.
