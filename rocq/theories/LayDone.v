(** Proofs about the layout of drawings: the drawing of a diagram. *)
From Coq Require Import QArith Lqa Lia.
From Verif Require Import PyBase DiagModel GDiag GDiagSpec LayModel LaySpec LayFacts LayInv LayFinal LayEnd.
Close Scope string_scope. Set Implicit Arguments. Unset Strict Implicit.
Open Scope Q_scope.

Section Lay.
  Variables (A B : Type) (bd bc : B -> list A) (quantum : B -> bool).
  Notation drw := (drawable A B).
  Variable d : gdiag A B.
  Let ls : list (list A * B * list A) := glayers d.
  Notation nm := (num bd bc d).
  Definition pnum (x : port * kind * A) : nat := let '(p, _, _) := x in nm p.
  Lemma numbered_num f k (t : list A) s : (forall i, nm (f i) = (s + i)%nat) -> map pnum (numbered f k t) = seq s (List.length t).
  Proof.
    intro H. unfold numbered. enough (K : forall n, map pnum (map (fun '(i, a) => (f i, k, a)) (enum n t)) = seq (s + n) (List.length t)) by (rewrite K; f_equal; lia).
    induction t as [|a t IH]; intro n; cbn [enum map List.length seq]; [reflexivity|]. rewrite IH. unfold pnum at 1. rewrite H. f_equal. f_equal. lia.
  Qed.
  Lemma upto_num t : (t <= List.length ls)%nat -> map pnum (ports_upto bd bc d t) = seq 0 (base bd bc d t).
  Proof.
    induction t as [|t IH]; intro L.
    - unfold ports_upto, base. cbn [firstn enum flat_map]. rewrite app_nil_r. rewrite (@numbered_num PIn KInput (gdom d) 0) by reflexivity. change (list_sum (map (wide bd bc) [])) with 0%nat. rewrite <- plus_n_O. reflexivity.
    - destruct (nth_error ls t) as [x|] eqn:E; [|apply nth_error_None in E; lia]. specialize (IH ltac:(lia)).
      assert (EQ : ports_upto bd bc d (S t) = ports_upto bd bc d t ++ box_ports bd bc t x).
      { unfold ports_upto. change (glayers d) with ls. rewrite (firstn_snoc E), enum_app, flat_map_app, <- app_assoc. do 2 f_equal. assert (LT : List.length (firstn t ls) = t) by (rewrite firstn_length; lia). cbn [Nat.add]. rewrite LT. cbn [enum flat_map]. apply app_nil_r. }
      rewrite EQ, map_app, IH, (base_S bd bc E). unfold box_ports, wide. rewrite map_app, !seq_app. f_equal. f_equal.
      + apply numbered_num. reflexivity.
      + apply numbered_num. intro i. cbn [num]. unfold ndom. change (glayers d) with ls. rewrite E. reflexivity.
  Qed.
  Lemma ports_eq : ports bd bc d = ports_upto bd bc d (List.length ls) ++ numbered POut KOutput (gcod d).
  Proof. unfold ports, ports_upto, ls. rewrite firstn_all, <- app_assoc. reflexivity. Qed.
  Lemma ports_num : map pnum (ports bd bc d) = seq 0 (List.length (ports bd bc d)).
  Proof.
    assert (K : map pnum (ports bd bc d) = seq 0 (base bd bc d (List.length ls) + List.length (gcod d))).
    { rewrite ports_eq, map_app, upto_num by lia. rewrite seq_app. f_equal. apply numbered_num. reflexivity. }
    rewrite K. f_equal. rewrite <- (map_length pnum), K, seq_length. reflexivity.
  Qed.
  Lemma num_ok i p k a : nth_error (ports bd bc d) i = Some (p, k, a) -> nm p = i.
  Proof.
    intro E. assert (L : (i < List.length (ports bd bc d))%nat) by (apply nth_error_Some; congruence).
    assert (K := map_nth_error pnum _ _ E). rewrite ports_num in K. rewrite (nth_error_nth' _ 0%nat) in K by (rewrite seq_length; exact L). rewrite seq_nth in K by exact L. injection K as K. symmetry. exact K.
  Qed.
  Lemma shows_move f h (g : drw) num : shows bd bc d g num -> shows bd bc d (map_y h (map_x f g)) num.
  Proof.
    intros []. constructor; auto.
    - unfold map_y, map_x. cbn [dr_ends]. rewrite !map_map. cbn [we_kind we_obj]. exact sh_ends.
    - unfold map_y, map_x. cbn [dr_boxes]. rewrite !map_map. cbn [bn_obj bn_dom bn_cod]. exact sh_boxes.
  Qed.
  Lemma shows_out g scan m : com bd bc d (List.length ls) g scan -> width bc d (List.length ls) = List.length (gcod d) -> shows bd bc d (with_out g scan (gcod d) m) nm.
  Proof.
    intros [] W. constructor.
    - unfold with_out. cbn [dr_ends]. rewrite ports_eq, !map_app, c_ends. f_equal. unfold out_ends, numbered. apply (@kinds_enum A POut KOutput (gcod d) (fun i obj => WE KOutput obj (gx g (nth i scan 0%nat)) (m - 1))). reflexivity.
    - intros i p k a. apply num_ok.
    - unfold with_out. cbn [dr_wires]. unfold links. rewrite map_app, c_wires. f_equal. rewrite map_map, c_scan, W, c_size. fold ls. generalize (List.length (gcod d)) as n. intro n.
      assert (K : forall n s z, combine (map (fun p => nm (source bd bc ls (List.length ls) p)) (seq s n)) (seq (z + s) n) = map (fun i => (nm (source bd bc ls (List.length ls) i), (z + i)%nat)) (seq s n)).
      { clear n. induction n as [|n IH]; intros s z; cbn [seq map combine]; [reflexivity|]. rewrite plus_n_Sm, IH. reflexivity. }
      specialize (K n 0%nat (base bd bc d (List.length ls))). rewrite <- plus_n_O in K. exact K.
    - unfold with_out. cbn [dr_boxes]. rewrite c_boxes. unfold ls. rewrite firstn_all. reflexivity.
  Qed.
  Lemma grows_shift a : grows (fun x => x - a).
  Proof. intros x y. lra. Qed.
  (** the whole of it *)
  Lemma lay fol (good : Prop) : gwf bd bc d -> (good -> connected_levels bc d \/ fol = true) -> gdom d <> [] \/ glayers d <> [] ->
    exists g hist, from_diagram bd bc quantum d fol = Ok g /\ shows bd bc d g nm /\ fin good g hist /\ (forall t, (t <= List.length ls)%nat -> In (scan_at bd bc d t) hist) /\ at_origin g.
  Proof.
    intros WF GD NE.
    destruct (@loop _ _ bd bc quantum d good fol (glayers d) [] (gdom d) _ _ 1 _ eq_refl WF eq_refl GD (com_start bd bc d) (geo_start B good fol (gdom d))) as (g & scan & m & hist & E & C & G & HI & W).
    { intros t Ht. cbn [List.length] in Ht. replace t with 0%nat by lia. left. exact (c_scan (com_start bd bc d)). }
    cbn [List.length] in E.
    assert (LS : List.length (gcod d) = List.length scan) by (rewrite (c_scan C), map_length, seq_length; symmetry; exact W).
    assert (F := fin_out G LS). assert (SH := shows_out m C W).
    destruct (@origin_ok _ _ (with_out g scan (gcod d) m)) as (a & b & EO & AO).
    { destruct NE as [NE|NE].
      - right. unfold with_out. cbn [dr_ends]. intro K. apply app_eq_nil in K. destruct K as (K & _). assert (S0 := c_size C). unfold size, base in S0. rewrite K in S0. cbn [List.length] in S0. destruct (gdom d); [congruence|cbn [List.length] in S0; lia].
      - left. unfold with_out. cbn [dr_boxes]. intro K. assert (B0 := f_equal (@List.length _) (c_boxes C)). rewrite K, firstn_all, !map_length, enum_length in B0. cbn [List.length] in B0. destruct (glayers d); [congruence|discriminate]. }
    exists (map_y (fun y => y - b) (map_x (fun x => x - a) (with_out g scan (gcod d) m))), hist. split.
    { unfold from_diagram. rewrite E. cbn [bind]. rewrite outputs_ok; [cbn [bind]; exact EO| |exact LS]. exact (proj1 (i_hist G (i_cur G))). }
    split; [apply shows_move; exact SH|]. split; [apply fin_map_y, fin_map_x; [apply grows_shift|exact F]|]. split; [exact HI|exact AO].
  Qed.
  Lemma lay_err fol : gwf bd bc d -> gdom d = [] -> glayers d = [] -> from_diagram bd bc quantum d fol = Err ValueError.
  Proof. intros WF E1 E2. unfold from_diagram. unfold gwf in WF. rewrite E1, E2 in *. cbn [gchain] in WF. rewrite <- WF. reflexivity. Qed.
  Lemma fin_spaced good (g : drw) hist : fin good g hist -> (forall t, (t <= List.length ls)%nat -> In (scan_at bd bc d t) hist) -> spaced bd bc d g nm.
  Proof.
    intros F HI t p r L (P & R). fold ls in L. change (match t with O => _ | S t' => _ end) with (width bc d t) in R.
    destruct (n_hist F (HI t L)) as (IN & SP).
    assert (NS : forall i, (i < width bc d t)%nat -> nth i (scan_at bd bc d t) 0%nat = nm (source bd bc ls t i)).
    { intros i H. unfold scan_at. rewrite (nth_indep _ 0%nat (nm (source bd bc ls t 0))) by (rewrite map_length, seq_length; exact H). rewrite (map_nth (fun p => nm (source bd bc ls t p))). rewrite seq_nth by exact H. reflexivity. }
    assert (LS : List.length (scan_at bd bc d t) = width bc d t) by (unfold scan_at; rewrite map_length, seq_length; reflexivity).
    assert (I1 : (nm (source bd bc ls t p) < size g)%nat) by (rewrite <- NS by lia; apply IN, nth_In; lia). assert (I2 : (nm (source bd bc ls t r) < size g)%nat) by (rewrite <- NS by lia; apply IN, nth_In; lia).
    exists (gx g (nm (source bd bc ls t p))), (gy g (nm (source bd bc ls t p))), (gx g (nm (source bd bc ls t r))), (gy g (nm (source bd bc ls t r))).
    split; [apply located_ok; exact I1|]. split; [apply located_ok; exact I2|]. rewrite <- !NS by lia. apply SP. lia.
  Qed.
End Lay.
