(** Proofs about the layout of drawings: the whole drawing. *)
From Coq Require Import QArith Lqa Lia.
From Verif Require Import PyBase DiagModel GDiag GDiagSpec LayModel LaySpec LayFacts LayInv.
Close Scope string_scope. Set Implicit Arguments. Unset Strict Implicit.
Open Scope Q_scope.

Section Lay.
  Variables (A B : Type) (bd bc : B -> list A) (quantum : B -> bool).
  Notation drw := (drawable A B).
  Lemma place_ok good fol (g : drw) scan hist m box off : geo good fol g scan hist m -> (off + List.length (bd box) <= List.length scan)%nat ->
    (good -> scan <> [] \/ fol = true \/ dr_boxes g = []) ->
    exists f x y, place bd bc quantum fol (g, scan, m) (List.length (dr_boxes g), (box, off)) = Ok (with_box bd bc quantum (map_x f g) scan box off x y, next_scan bd bc g scan box off, py_min2 m y) /\
      geo good fol (with_box bd bc quantum (map_x f g) scan box off x y) (next_scan bd bc g scan box off) (next_scan bd bc g scan box off :: hist) (py_min2 m y).
  Proof.
    intros G LE GD. assert (IN := proj1 (i_hist G (i_cur G))). assert (SP := proj2 (i_hist G (i_cur G))).
    assert (P : exists f x y l r, make_space bd bc g scan box off = Ok (map_x f g, x, y) /\ geo good fol (map_x f g) scan hist m /\
      fits bd bc good fol (map_x f g) scan box off x (if fol then - qnat (List.length (dr_boxes g)) else y) l r).
    { destruct scan as [|s0 scan0] eqn:Es.
      - cbn [List.length] in LE. exists (fun z => z), 0, 0. eexists. eexists. rewrite map_x_id. split; [reflexivity|]. split; [exact G|]. constructor; try (cbn [List.length]; lia).
        + destruct fol; [|lra]. assert (K := @qnat_pos (List.length (dr_boxes g))). lra.
        + intros Gd b Hb. left. destruct (GD Gd) as [H|[H|H]]; [congruence| |rewrite H in Hb; destruct Hb]. rewrite H. assert (K := i_fol G H Hb). lra.
        + split; apply Qle_refl.
        + intros ->. reflexivity.
      - rewrite <- Es in *. assert (NE : scan <> []) by (rewrite Es; discriminate).
        destruct (make_space_ok bc NE IN SP LE (i_box G)) as (f & x & y & l & r & E & GF & H1 & H2 & H3 & H4 & H5 & H6 & H7 & H8 & H9).
        assert (G1 := geo_map GF G). exists f, x, y, l, r. split; [exact E|]. split; [exact G1|]. assert (N := @qnat_pos (pred (List.length (bc box)))). constructor; auto.
        + destruct fol; [|exact H4]. assert (K := @qnat_pos (List.length (dr_boxes g))). lra.
        + intros i b L Hb Hi. destruct fol eqn:F.
          * assert (K := i_fol G1 eq_refl Hb). rewrite boxes_map, map_length in K. lra.
          * destruct (H5 b Hb) as [K|K]; [exact K|]. exfalso. assert (IL : In (nth i scan 0%nat) (legs b)) by (unfold legs; apply in_or_app; right; exact Hi).
            assert (IX := legs_in (map_x f g) IL). destruct (H8 ltac:(lia)) as (L1 & L2).
            destruct (@dom_between _ _ bd bc _ _ _ _ _ _ box off G1 LE (i - off)%nat ltac:(lia)) as (D1 & D2). replace (off + (i - off))%nat with i in D1, D2 by lia. destruct K as [K|K]; specialize (K _ IX); q.
        + intros Gd b Hb. destruct fol eqn:F; [|exact (H5 b Hb)]. left. assert (K := i_fol G1 eq_refl Hb). rewrite boxes_map, map_length in K. lra.
        + destruct (Nat.eq_dec (List.length (bc box)) 0) as [Z|Z].
          * rewrite Z in *. change (qnat (pred 0)) with 0 in *. split; q.
          * destruct (H9 ltac:(lia)) as (L1 & L2). split; q.
        + intros ->. rewrite boxes_map, map_length. reflexivity. }
    destruct P as (f & x & y & l & r & E & G1 & FT). exists f, x, (if fol then - qnat (List.length (dr_boxes g)) else y).
    assert (NS : next_scan bd bc (map_x f g) scan box off = next_scan bd bc g scan box off) by (unfold next_scan; rewrite size_map; reflexivity). split.
    - unfold place. rewrite E. cbn [bind]. rewrite add_box_ok; [cbn [bind]; rewrite NS; reflexivity| |exact LE]. exact (proj1 (i_hist G1 (i_cur G1))).
    - rewrite <- NS. exact (geo_box quantum G1 LE FT).
  Qed.

  (** *** the beginning *)
  Lemma inputs_x (t : list A) i : (i < List.length t)%nat -> nth i (map (@we_x A) (inputs t)) 0 = X_SPACING * qnat i /\ nth i (map (@we_y A) (inputs t)) 0 = 1.
  Proof.
    intro H. unfold inputs. rewrite !map_map. destruct (@nth_enum _ _ (fun p => we_x (let '(i0, obj) := p in WE KInput obj (X_SPACING * qnat i0) 1)) t 0 0%nat i H) as (a & ->).
    destruct (@nth_enum _ _ (fun p => we_y (let '(i0, obj) := p in WE KInput obj (X_SPACING * qnat i0) 1)) t 0 0%nat i H) as (a' & ->). split; reflexivity.
  Qed.
  Lemma inputs_length (t : list A) : List.length (inputs t) = List.length t.
  Proof. unfold inputs. rewrite map_length, enum_length. reflexivity. Qed.
  Lemma geo_start good fol (t : list A) : geo good fol (DD [] (inputs t) [] : drw) (seq 0 (List.length t)) [seq 0 (List.length t)] 1.
  Proof.
    assert (IN : inside (DD [] (inputs t) [] : drw) (seq 0 (List.length t))) by (intros i Hi; apply in_seq in Hi; unfold size; cbn [dr_ends]; rewrite inputs_length; lia).
    constructor; cbn [dr_boxes dr_wires]; try (intros; contradiction).
    - left. reflexivity.
    - intros s [<-|[]]. split; [exact IN|]. intros i j L. rewrite seq_length in L. rewrite !seq_nth by lia. cbn [Nat.add]. unfold gx. cbn [dr_ends]. rewrite (proj1 (@inputs_x t i ltac:(lia))), (proj1 (@inputs_x t j ltac:(lia))).
      assert (K := @qnat_lt i j ltac:(lia)). q.
    - intros i Hi. left. apply in_seq in Hi. unfold gy. cbn [dr_ends]. rewrite (proj2 (@inputs_x t i ltac:(lia))). lra.
    - lra.
    - intros _ i j a b _ E. destruct i; discriminate.
  Qed.

  (** *** the numbering of ports *)
  Section Num.
    Variable d : gdiag A B.
    Let ls : list (list A * B * list A) := glayers d.
    Definition wide (x : list A * B * list A) : nat := List.length (bd (gl_box x)) + List.length (bc (gl_box x)).
    Definition base (k : nat) : nat := List.length (gdom d) + list_sum (map wide (firstn k ls)).
    Definition ndom (k : nat) : nat := match nth_error ls k with Some x => List.length (bd (gl_box x)) | None => 0 end.
    Definition num (p : port) : nat := match p with PIn i => i | PDom k i => base k + i | PCod k i => base k + ndom k + i | POut i => base (List.length ls) + i end.
    Definition width (t : nat) : nat := match t with O => List.length (gdom d) | S t' => match nth_error ls t' with Some x => List.length (gl_cod bc x) | None => 0 end end.
    Lemma firstn_snoc X (l : list X) k x : nth_error l k = Some x -> firstn (S k) l = firstn k l ++ [x].
    Proof. revert k. induction l as [|y l IH]; intros [|k] E; try discriminate; cbn [nth_error] in E; [injection E as ->; reflexivity|]. change (firstn (S (S k)) (y :: l)) with (y :: firstn (S k) l). rewrite (IH k E). reflexivity. Qed.
    Lemma base_S k x : nth_error ls k = Some x -> base (S k) = (base k + wide x)%nat.
    Proof. unfold base. intro E. rewrite (firstn_snoc E), map_app, list_sum_app. cbn [map]. change (list_sum [wide x]) with (wide x + 0)%nat. rewrite <- plus_n_O. apply Nat.add_assoc. Qed.
    Definition ports_upto (t : nat) : list (port * kind * A) := numbered PIn KInput (gdom d) ++ flat_map (fun '(k, x) => box_ports bd bc k x) (enum 0 (firstn t ls)).
    Record com (t : nat) (g : drw) (scan : list nat) : Prop := {
      c_scan : scan = map (fun p => num (source bd bc ls t p)) (seq 0 (width t));
      c_size : size g = base t;
      c_ends : map (fun e => (we_kind e, we_obj e)) (dr_ends g) = map (fun '(p, k, a) => (k, a)) (ports_upto t);
      c_wires : dr_wires g = map (fun '(p, q) => (num p, num q)) (flat_map (wires_into bd bc ls) (seq 0 t));
      c_boxes : map (fun b => (bn_obj b, bn_dom b, bn_cod b)) (dr_boxes g) =
               map (fun '(k, x) => (gl_box x, map (fun i => num (PDom k i)) (seq 0 (List.length (bd (gl_box x)))), map (fun i => num (PCod k i)) (seq 0 (List.length (bc (gl_box x)))))) (enum 0 (firstn t ls)) }.
    Lemma enum_app X (l1 l2 : list X) : forall k, enum k (l1 ++ l2) = enum k l1 ++ enum (k + List.length l1) l2.
    Proof. induction l1 as [|x l1 IH]; intro k; cbn [app enum List.length]; [f_equal; lia|]. rewrite IH. cbn [app]. do 3 f_equal. lia. Qed.
    Lemma kinds_enum (f : nat -> port) k (t : list A) (h : nat -> A -> wire_end A) : (forall i a, (we_kind (h i a), we_obj (h i a)) = (k, a)) -> forall s,
      map (fun e => (we_kind e, we_obj e)) (map (fun '(i, a) => h i a) (enum s t)) = map (fun '(p, k, a) => (k, a)) (map (fun '(i, a) => (f i, k, a)) (enum s t)).
    Proof. intro H. induction t as [|a t IH]; intro s; cbn [enum map]; [reflexivity|]. rewrite IH, H. reflexivity. Qed.
    Lemma com_map t f g scan : com t g scan -> com t (map_x f g) scan.
    Proof.
      intros []. constructor; auto.
      - rewrite size_map. exact c_size0.
      - unfold map_x. cbn [dr_ends]. rewrite map_map. cbn [we_kind we_obj]. exact c_ends0.
      - unfold map_x. cbn [dr_boxes]. rewrite map_map. cbn [bn_obj bn_dom bn_cod]. exact c_boxes0.
    Qed.
    Lemma com_start : com 0 (DD [] (inputs (gdom d)) [] : drw) (seq 0 (List.length (gdom d))).
    Proof.
      constructor.
      - cbn [source num width]. rewrite map_id. reflexivity.
      - unfold size, base. cbn [dr_ends firstn map list_sum fold_right]. rewrite inputs_length. lia.
      - unfold ports_upto, inputs, numbered. cbn [dr_ends firstn enum flat_map]. rewrite app_nil_r. apply (@kinds_enum PIn KInput (gdom d) (fun i obj => WE KInput obj (X_SPACING * qnat i) 1)). reflexivity.
      - reflexivity.
      - reflexivity.
    Qed.
    Lemma map_seq_shift X k : forall (f : nat -> X) s, map f (seq s k) = map (fun i => f (s + i)%nat) (seq 0 k).
    Proof. induction k as [|k IH]; intros f s; cbn [seq map]; [reflexivity|]. rewrite <- plus_n_O. f_equal. rewrite (IH f (S s)), (IH (fun i => f (s + i)%nat) 1%nat). apply map_ext. intro i. f_equal. lia. Qed.
    Lemma com_box t l b r g scan x y : nth_error ls t = Some (l, b, r) -> width t = (List.length l + List.length (bd b) + List.length r)%nat -> List.length (firstn t ls) = t -> com t g scan ->
      com (S t) (with_box bd bc quantum g scan b (List.length l) x y) (next_scan bd bc g scan b (List.length l)).
    Proof.
      intros E W LT []. assert (LS : List.length scan = width t) by (rewrite c_scan0, map_length, seq_length; reflexivity).
      assert (W' : width (S t) = (List.length l + List.length (bc b) + List.length r)%nat) by (unfold width; rewrite E; unfold gl_cod, gl_left, gl_right, gl_box; cbn [fst snd]; rewrite !app_length; lia).
      assert (ND : ndom t = List.length (bd b)) by (unfold ndom; rewrite E; reflexivity).
      assert (NS : forall p, (p < width t)%nat -> nth p scan 0%nat = num (source bd bc ls t p)).
      { intros p P. rewrite c_scan0. rewrite (nth_indep _ 0%nat (num (source bd bc ls t 0))) by (rewrite map_length, seq_length; exact P). rewrite (map_nth (fun p => num (source bd bc ls t p))). rewrite seq_nth by exact P. reflexivity. }
      constructor.
      - apply (nth_ext _ _ 0%nat (num (source bd bc ls (S t) 0))).
        + rewrite next_length by lia. rewrite map_length, seq_length. lia.
        + intros p P. rewrite next_length in P by lia. rewrite nth_next by lia. rewrite (map_nth (fun p => num (source bd bc ls (S t) p))). rewrite seq_nth by lia. cbn [Nat.add source].
          rewrite E.
          destruct (Nat.ltb_spec p (List.length l)); [apply NS; lia|]. destruct (Nat.ltb_spec p (List.length l + List.length (bc b))).
          * assert (K : (p - List.length l <? List.length (bc b))%nat = true) by (apply Nat.ltb_lt; lia). rewrite K. cbn [num]. rewrite ND. lia.
          * apply NS. lia.
      - rewrite size_box, (base_S E). unfold wide, gl_box. cbn [fst snd]. lia.
      - unfold with_box. cbn [dr_ends]. unfold ports_upto. rewrite (firstn_snoc E), enum_app, flat_map_app, !map_app, c_ends0. rewrite LT. cbn [Nat.add enum flat_map]. rewrite app_nil_r. unfold ports_upto. rewrite !map_app, <- app_assoc.
        f_equal. f_equal. unfold box_ports, numbered, gl_box. cbn [fst snd]. rewrite map_app. f_equal.
        + unfold dom_ends. apply (@kinds_enum (PDom t) KDom (bd b) (fun i obj => WE KDom obj (gx g (nth (List.length l + i) scan 0%nat)) (y + HALF_BOX_HEIGHT))). reflexivity.
        + unfold cod_ends. apply (@kinds_enum (PCod t) KCod (bc b) (fun i obj => WE KCod obj (cod_x bd bc quantum g scan b (List.length l) x i) (y - HALF_BOX_HEIGHT))). reflexivity.
      - unfold with_box. cbn [dr_wires]. rewrite seq_S, flat_map_app, map_app, c_wires0. f_equal. cbn [Nat.add flat_map]. rewrite app_nil_r. unfold wires_into. rewrite E. rewrite map_map. rewrite c_size0.
        apply (nth_ext _ _ (0%nat, 0%nat) (num (source bd bc ls t (List.length l + 0)), num (PDom t 0))).
        + rewrite combine_length, firstn_length, skipn_length, !map_length, !seq_length. lia.
        + intros i I. rewrite combine_length, firstn_length, skipn_length, seq_length in I. rewrite combine_nth by (rewrite firstn_length, skipn_length, seq_length; lia).
          rewrite (map_nth (fun i => (num (source bd bc ls t (List.length l + i)), num (PDom t i)))). rewrite !seq_nth by lia. cbn [Nat.add num]. f_equal. rewrite <- NS by lia. rewrite <- nth_skipn.
          rewrite <- (firstn_skipn (List.length (bd b)) (skipn (List.length l) scan)) at 2. rewrite app_nth1; [reflexivity|]. rewrite firstn_length, skipn_length. lia.
      - unfold with_box. cbn [dr_boxes]. rewrite (firstn_snoc E), enum_app, !map_app, c_boxes0. f_equal. rewrite LT. cbn [Nat.add enum map bn_obj bn_dom bn_cod]. unfold gl_box. cbn [fst snd]. do 2 f_equal.
        + f_equal. rewrite c_size0, <- map_id at 1. rewrite map_seq_shift. reflexivity.
        + rewrite c_size0, <- map_id at 1. rewrite map_seq_shift. cbn [num]. rewrite ND. reflexivity.
    Qed.

    Definition scan_at (t : nat) : list nat := map (fun p => num (source bd bc ls t p)) (seq 0 (width t)).
    Lemma loop (good : Prop) fol post : forall pre dm g scan m hist, ls = pre ++ post -> gchain bd bc dm post (gcod d) -> List.length dm = width (List.length pre) -> (good -> connected_levels bc d \/ fol = true) ->
      com (List.length pre) g scan -> geo good fol g scan hist m -> (forall t, (t <= List.length pre)%nat -> In (scan_at t) hist) ->
      exists g' scan' m' hist', foldM (place bd bc quantum fol) (enum (List.length pre) (map (fun x => (gl_box x, List.length (gl_left x))) post)) (g, scan, m) = Ok (g', scan', m') /\
        com (List.length ls) g' scan' /\ geo good fol g' scan' hist' m' /\ (forall t, (t <= List.length ls)%nat -> In (scan_at t) hist') /\ width (List.length ls) = List.length (gcod d).
    Proof.
      induction post as [|[[l b] r] post IH]; intros pre dm g scan m hist EL CH W GD C G HI.
      - rewrite app_nil_r in EL. rewrite EL. exists g, scan, m, hist. split; [reflexivity|]. split; [exact C|]. split; [exact G|]. split; [exact HI|]. cbn [gchain] in CH. rewrite <- CH. symmetry. exact W.
      - cbn [gchain] in CH. destruct CH as (Ed & CH). assert (En : nth_error ls (List.length pre) = Some (l, b, r)) by (rewrite EL, nth_error_app2, Nat.sub_diag by lia; reflexivity).
        assert (LP : List.length (firstn (List.length pre) ls) = List.length pre) by (rewrite firstn_length, EL, app_length; lia).
        assert (LB : List.length (dr_boxes g) = List.length pre) by (assert (K := f_equal (@List.length _) (c_boxes C)); rewrite !map_length, enum_length, LP in K; exact K).
        assert (Wt : width (List.length pre) = (List.length l + List.length (bd b) + List.length r)%nat) by (rewrite <- W, Ed, !app_length; lia).
        assert (LS : List.length scan = width (List.length pre)) by (rewrite (c_scan C), map_length, seq_length; reflexivity).
        destruct (@place_ok good fol g scan hist m b (List.length l) G ltac:(lia)) as (f & x & y & E & G').
        { intro Gd. destruct (GD Gd) as [K|K]; [|right; left; exact K]. destruct (List.length pre) as [|k] eqn:Ep.
          - right. right. destruct (dr_boxes g); [reflexivity|discriminate].
          - left. intro Es. rewrite Es in LS. cbn [List.length] in LS. assert (Lk : (S k < List.length ls)%nat) by (rewrite EL, app_length, Ep; cbn [List.length]; lia).
            destruct (nth_error ls k) as [x0|] eqn:Ek; [|apply nth_error_None in Ek; lia]. apply (K k x0 Lk Ek). unfold width in LS. rewrite Ek in LS. destruct (gl_cod bc x0); [reflexivity|discriminate]. }
        assert (C' : com (S (List.length pre)) (with_box bd bc quantum (map_x f g) scan b (List.length l) x y) (next_scan bd bc g scan b (List.length l))).
        { assert (NS : next_scan bd bc (map_x f g) scan b (List.length l) = next_scan bd bc g scan b (List.length l)) by (unfold next_scan; rewrite size_map; reflexivity).
          rewrite <- NS. eapply com_box; eauto. apply com_map. exact C. }
        destruct (IH (pre ++ [(l, b, r)]) (l ++ bc b ++ r) (with_box bd bc quantum (map_x f g) scan b (List.length l) x y) (next_scan bd bc g scan b (List.length l)) (py_min2 m y) (next_scan bd bc g scan b (List.length l) :: hist)) as (g' & scan' & m' & hist' & EF & R).
        + rewrite <- app_assoc. exact EL.
        + exact CH.
        + rewrite (app_length pre). cbn [List.length]. rewrite Nat.add_1_r. unfold width. rewrite En. unfold gl_cod, gl_left, gl_right, gl_box. cbn [fst snd]. reflexivity.
        + exact GD.
        + rewrite (app_length pre). cbn [List.length]. rewrite Nat.add_1_r. exact C'.
        + exact G'.
        + rewrite (app_length pre). cbn [List.length]. intros t Ht. destruct (Nat.eq_dec t (S (List.length pre))) as [->|N]; [left; exact (c_scan C')|right; apply HI; lia].
        + exists g', scan', m', hist'. split; [|exact R]. cbn [map enum foldM]. unfold gl_box at 1, gl_left at 1. cbn [fst snd]. rewrite <- LB. rewrite E. cbn [bind]. rewrite LB. rewrite (app_length pre) in EF. cbn [List.length] in EF. rewrite Nat.add_1_r in EF. exact EF.
    Qed.
  End Num.
End Lay.
