(** Proofs about [lambdify]. *)
From Coq Require Import QArith.
From Verif Require Import PyBase PyFacts DiagMisc GDiag QModel TnModel LamModel LamSpec.
Close Scope Q_scope. Set Implicit Arguments. Unset Strict Implicit.
Lemma sym_eqb_plain x n a b : s_scale x = 1%Q -> sym_eqb x (Sym n a b 1%Q) = true <-> x = Sym n a b 1%Q.
Proof.
  destruct x as [n' a' b' s]. cbn. intros ->. unfold sym_eqb. cbn. rewrite !andb_true_iff, String.eqb_eq, !Z.eqb_eq. split; [intros [[[-> ->] ->] _]; reflexivity|intros [= -> -> ->]; auto].
Qed.
Lemma sym_index_ok l n a b : Forall (fun s => s_scale s = 1%Q) l -> forall i, NoDup l -> nth_error l i = Some (Sym n a b 1%Q) -> sym_index l (Sym n a b 1%Q) = Ok i.
Proof.
  induction l as [|y l IH]; intros F i N E; [destruct i; discriminate|]. inversion F as [|? ? F1 F2]; subst. inversion N as [|? ? N1 N2]; subst. cbn [sym_index].
  destruct (sym_eqb y (Sym n a b 1%Q)) eqn:Q.
  - apply sym_eqb_plain in Q; auto. subst y. destruct i as [|i]; [reflexivity|]. exfalso. apply N1. cbn in E. eapply nth_error_In; eauto.
  - destruct i as [|i]; cbn in E.
    + injection E as ->. assert (X : sym_eqb (Sym n a b 1%Q) (Sym n a b 1%Q) = true) by (now apply sym_eqb_plain). congruence.
    + rewrite (IH F2 i N2 E). reflexivity.
Qed.
Lemma sym_index_none l n a b : Forall (fun s => s_scale s = 1%Q) l -> ~ In (Sym n a b 1%Q) l -> sym_index l (Sym n a b 1%Q) = Err ValueError.
Proof.
  induction l as [|y l IH]; intros F N; [reflexivity|]. inversion F; subst. cbn. destruct (sym_eqb y (Sym n a b 1%Q)) eqn:Q; [apply sym_eqb_plain in Q; auto; exfalso; apply N; now left|]. rewrite IH; auto. intro; apply N; now right.
Qed.
Lemma given_in V symbols (xs : list V) n a b : List.length xs = List.length symbols -> In (Sym n a b 1%Q) symbols -> exists x, given symbols xs n a b x.
Proof.
  intros L H. apply In_nth_error in H. destruct H as [i Hi]. destruct (nth_error xs i) as [x|] eqn:E; [exists x, i; auto|]. exfalso. apply nth_error_None in E. assert (nth_error symbols i <> None) by congruence. apply nth_error_Some in H. lia.
Qed.
Lemma lam_sym_ok V (smul : Q -> V -> V) symbols xs s x : plain symbols -> given symbols xs (s_name s) (s_dd s) (s_dc s) x ->
  lam_sym smul symbols xs s = Ok (if negb (Qeq_bool (s_scale s) 1) then smul (s_scale s) x else x).
Proof. intros [N F] (i & E1 & E2). unfold lam_sym, unscaled. rewrite (sym_index_ok F N E1). cbn [bind]. unfold get. rewrite E2. reflexivity. Qed.
Lemma qdag_neq b : b <> QDag (QDag b).
Proof. induction b; intro H; try discriminate. injection H as H. auto. Qed.
Lemma lam_q_ok symbols xs : plain symbols -> List.length xs = List.length symbols -> forall b, q_made b -> incl (q_syms b) symbols -> exists b', lam_q symbols xs b = Ok b' /\ q_inst symbols xs b b'.
Proof.
  intros P L. induction b; intros M I; cbn [lam_q]; try (eexists; split; [reflexivity|now constructor]).
  - destruct phase as [n dd dc s|v]; cbn [lam_param]; [|eexists; split; [reflexivity|constructor]].
    destruct (@given_in _ symbols xs n dd dc L) as [x G]; [apply I; now left|]. rewrite (@lam_sym_ok _ Qmult symbols xs (Sym n dd dc s) x P G). cbn [rmap bind s_scale]. eexists. split; [reflexivity|].
    apply qi_sym with x; auto. destruct (Qeq_bool s 1) eqn:E; cbn; [|reflexivity]. apply Qeq_bool_eq in E. rewrite E. ring.
  - destruct M as [Hd M]. destruct (IHb M I) as (b' & E & G). rewrite E. cbn [bind]. unfold mk_ctl. destruct (Z.eqb_spec distance 0); [contradiction|]. eexists. split; [reflexivity|]. now constructor.
  - destruct M as [Hd M]. destruct (IHb M I) as (b' & E & G). rewrite E. cbn [bind]. exists (q_dag b'). split; [reflexivity|]. assert (q_dag b' = QDag b') as ->; [|now constructor].
    destruct b; cbn in Hd; try discriminate.
    + inversion G; subst; auto.
    + inversion G; subst; auto.
    + exfalso. revert Hd. apply qdag_neq.
Qed.
Lemma mapM_layers A B (R : B -> B -> Prop) (f : B -> res B) : forall ls : list (list A * B * list A), (forall x, In x ls -> exists b', f (gl_box x) = Ok b' /\ R (gl_box x) b') ->
  exists ls', mapM (fun x => do b <- f (gl_box x); Ok (gl_left x, b, gl_right x)) ls = Ok ls' /\ Forall2 (layer_inst R) ls ls'.
Proof.
  induction ls as [|x ls IH]; intro H; [exists []; split; [reflexivity|constructor]|]. destruct (H x) as (b' & E & G); [now left|]. destruct IH as (ls' & E' & G'); [intros; apply H; now right|].
  cbn [mapM]. rewrite E. cbn [bind]. rewrite E'. cbn [bind]. eexists. split; [reflexivity|]. constructor; auto. repeat split; auto.
Qed.
Lemma lam_qdiag_ok symbols xs d : plain symbols -> List.length xs = List.length symbols -> Forall (fun b => q_made b /\ incl (q_syms b) symbols) (gboxes d) ->
  exists e, lam_qdiag d symbols xs = Ok e /\ diag_inst (q_inst symbols xs) d e.
Proof.
  intros P L F. destruct (@mapM_layers wire qbox (q_inst symbols xs) (lam_q symbols xs) (glayers d)) as (ls' & E & G).
  { intros x Hx. rewrite Forall_forall in F. destruct (F (gl_box x)) as [M I]; [unfold gboxes; now apply in_map|]. now apply lam_q_ok. }
  unfold lam_qdiag. unfold qdiag in *. match goal with |- context [bind ?x _] => replace x with (@Ok (list (list wire * qbox * list wire)) ls') by (symmetry; exact E) end. cbn [bind]. eexists. split; [reflexivity|]. repeat split; auto.
Qed.
Lemma lam_q_missing symbols xs b : plain symbols -> q_made b -> (exists s, In s (q_syms b) /\ ~ In s symbols) -> lam_q symbols xs b = Err ValueError.
Proof.
  intros [N F]. induction b; intros M (s & H1 & H2); cbn [q_syms] in H1; try contradiction.
  - destruct phase as [n dd dc sc|v]; [|contradiction]. destruct H1 as [<-|[]]. cbn. unfold lam_sym, unscaled. cbn [s_name s_dd s_dc]. rewrite sym_index_none; auto.
  - destruct M as [_ M]. cbn. rewrite IHb; eauto.
  - destruct M as [_ M]. cbn. rewrite IHb; eauto.
Qed.
Lemma sym_index_lt l s i : sym_index l s = Ok i -> i < List.length l.
Proof. revert i. induction l as [|y l IH]; intros i; cbn; [discriminate|]. destruct (sym_eqb y s); [intros [= <-]; lia|]. destruct (sym_index l s) as [j|]; [|discriminate]. intros [= <-]. specialize (IH j eq_refl). lia. Qed.
Lemma sym_index_err l s e : sym_index l s = Err e -> e = ValueError.
Proof. induction l as [|y l IH]; cbn; [congruence|]. destruct (sym_eqb y s); [discriminate|]. destruct (sym_index l s); [discriminate|]. cbn. intros [= ->]. auto. Qed.
Lemma lam_q_two symbols xs b : List.length xs = List.length symbols -> q_made b -> lam_q symbols xs b = Err ValueError \/ exists v, lam_q symbols xs b = Ok v.
Proof.
  intro L. induction b; intro M; cbn [lam_q]; eauto.
  - destruct phase as [n dd dc sc|v]; cbn; eauto. unfold lam_sym. destruct (sym_index symbols _) as [i|e] eqn:E; cbn.
    + apply sym_index_lt in E. unfold get. destruct (nth_error xs i) eqn:Ex; [cbn; eauto|]. apply nth_error_None in Ex. lia.
    + left. f_equal. now apply sym_index_err in E.
  - destruct M as [Hd M]. destruct (IHb M) as [E|[v E]]; rewrite E; cbn; auto. right. unfold mk_ctl. destruct (Z.eqb_spec distance 0); [contradiction|eauto].
  - destruct M as [_ M]. destruct (IHb M) as [E|[v E]]; rewrite E; cbn; eauto.
Qed.
Lemma mapM_err A B (f : A -> res B) e l x : In x l -> (forall y, In y l -> f y = Err e \/ exists v, f y = Ok v) -> f x = Err e -> mapM f l = Err e.
Proof.
  induction l as [|y l IH]; intros H1 H2 H3; [contradiction|]. cbn. destruct (H2 y) as [E|[v E]]; [now left|now rewrite E|]. rewrite E. cbn [bind]. destruct H1 as [->|H1]; [congruence|]. rewrite IH; auto. intros; apply H2; now right.
Qed.
Lemma lam_qdiag_missing symbols xs d : plain symbols -> List.length xs = List.length symbols -> Forall q_made (gboxes d) -> (exists b s, In b (gboxes d) /\ In s (q_syms b) /\ ~ In s symbols) -> lam_qdiag d symbols xs = Err ValueError.
Proof.
  intros P L F (b & s & Hb & Hs & Hn). unfold lam_qdiag. unfold gboxes in *. apply in_map_iff in Hb. destruct Hb as (x & <- & Hx).
  rewrite Forall_forall in F. rewrite (@mapM_err _ _ _ ValueError _ x); auto.
  - intros y Hy. assert (M : q_made (gl_box y)) by (apply F; now apply in_map).
    destruct (lam_q_two L M) as [E|[v E]]; rewrite E; cbn [bind]; eauto.
  - rewrite lam_q_missing; eauto. apply F. now apply in_map.
Qed.
(** ** tensor diagrams *)
Lemma free_mem x e n a b : s_scale x = 1%Q -> e = Sym n a b 1%Q -> existsb (sym_eqb x) [e] = true <-> x = e.
Proof. intros H ->. cbn. rewrite orb_false_r. now apply sym_eqb_plain. Qed.
Lemma lam_box_ok V (smul : Q -> V -> V) symbols xs : (forall q x, (q == 1)%Q -> smul q x = x) -> plain symbols -> List.length xs = List.length symbols ->
  forall b, t_simple b -> exists b', lam_box smul symbols xs b = Ok b' /\ t_inst smul symbols xs b b'.
Proof.
  intros H1 P L. induction b as [n d c data z|b IH|n d c]; intro M; cbn [lam_box].
  - destruct data as [s|v| |l]; cbn [t_simple] in M; try contradiction.
    + cbn [free_syms]. destruct (existsb (fun x => existsb (sym_eqb x) [unscaled s]) symbols) eqn:E.
      * apply existsb_exists in E. destruct E as (x & Hx & E). destruct P as [N F]. assert (SX : s_scale x = 1%Q) by (rewrite Forall_forall in F; auto). apply (@free_mem x (unscaled s) (s_name s) (s_dd s) (s_dc s) SX eq_refl) in E. subst x.
        destruct (@given_in _ symbols xs (s_name s) (s_dd s) (s_dc s) L) as [v G]; [exact Hx|]. cbn [lam_data]. rewrite (@lam_sym_ok _ smul symbols xs s v (conj N F) G). cbn [rmap bind]. subst z.
        destruct (Qeq_bool (s_scale s) 1) eqn:Q; cbn [negb]; eexists; (split; [reflexivity|]).
        -- apply Qeq_bool_eq in Q. rewrite <- (H1 (s_scale s) v Q). now constructor.
        -- now constructor.
      * eexists. split; [reflexivity|]. apply ti_free. intro Hin. assert (existsb (fun x => existsb (sym_eqb x) [unscaled s]) symbols = true); [|congruence].
        apply existsb_exists. exists (unscaled s). split; auto. now apply (@free_mem (unscaled s) (unscaled s) (s_name s) (s_dd s) (s_dc s)).
    + cbn. assert (E : existsb (fun _ : symbol => false) symbols = false) by (clear; induction symbols; auto). rewrite E. eexists. split; [reflexivity|constructor].
    + cbn. assert (E : existsb (fun _ : symbol => false) symbols = false) by (clear; induction symbols; auto). rewrite E. eexists. split; [reflexivity|constructor].
  - destruct (IH M) as (b' & E & G). rewrite E. cbn [bind]. eexists. split; [reflexivity|now constructor].
  - eexists. split; [reflexivity|constructor].
Qed.
Lemma lam_diag_ok V (smul : Q -> V -> V) symbols xs d : (forall q x, (q == 1)%Q -> smul q x = x) -> plain symbols -> List.length xs = List.length symbols -> Forall (@t_simple V) (gboxes d) ->
  exists e, lam_diag smul d symbols xs = Ok e /\ diag_inst (t_inst smul symbols xs) d e.
Proof.
  intros H1 P L F. destruct (@mapM_layers nat (lbox V) (t_inst smul symbols xs) (lam_box smul symbols xs) (glayers d)) as (ls' & E & G).
  { intros x Hx. rewrite Forall_forall in F. apply lam_box_ok; auto. apply F. unfold gboxes. now apply in_map. }
  unfold lam_diag. match goal with |- context [bind ?x _] => replace x with (@Ok (list (list nat * lbox V * list nat)) ls') by (symmetry; exact E) end. cbn [bind]. eexists. split; [reflexivity|]. repeat split; auto.
Qed.
