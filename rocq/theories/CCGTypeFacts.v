(** Proofs about CCG types: printing/parsing, substitution, spines. *)
From Verif Require Import PyBase PyFacts TyModel TyFacts DiagModel DiagSpec CCGModel CCGSpec.
Set Implicit Arguments.
Unset Strict Implicit.

Lemma dir_eqb_iff a b : dir_eqb a b = true <-> a = b.
Proof. destruct a, b; cbn; split; congruence. Qed.
Lemma cty_eqb_iff a : forall b, cty_eqb a b = true <-> a = b.
Proof.
  induction a as [|n|r IHr d x IHx]; intros [|n'|r' d' x']; cbn; try (split; congruence).
  - rewrite String.eqb_eq. split; congruence.
  - rewrite !andb_true_iff, IHr, IHx, dir_eqb_iff. split; [intros ((-> & ->) & ->)|intros [= -> -> ->]]; auto.
Qed.
Lemma cty_eqb_refl a : cty_eqb a a = true.
Proof. now apply cty_eqb_iff. Qed.
Lemma cty_eqb_neq a b : a <> b -> cty_eqb a b = false.
Proof. destruct (cty_eqb a b) eqn:E; [apply cty_eqb_iff in E; congruence|auto]. Qed.
Lemma cty_eqb_false a b : cty_eqb a b = false -> a <> b.
Proof. intros E ->. rewrite cty_eqb_refl in E. discriminate. Qed.
Lemma cty_dec (a b : cty) : {a = b} + {a <> b}.
Proof. destruct (cty_eqb a b) eqn:E; [left; now apply cty_eqb_iff|right; now apply cty_eqb_false]. Qed.

(** ** Parsing *)
Definition stopped (rest : list ascii) : Prop :=
  match rest with [] => True | c :: _ => is_stop c = true end.
Lemma is_stop_iff c : is_stop c = true <-> c = "/"%char \/ c = "\"%char \/ c = ")"%char.
Proof. unfold is_stop. rewrite !orb_true_iff, !Ascii.eqb_eq. tauto. Qed.
Lemma plain_stop c : plain c -> is_stop c = false /\ Ascii.eqb c "(" = false.
Proof.
  intros (a & b & e & f). split.
  - destruct (is_stop c) eqn:E; auto. apply is_stop_iff in E. intuition congruence.
  - destruct (Ascii.eqb_spec c "("); congruence.
Qed.
Lemma stop_plain c : is_stop c = false -> Ascii.eqb c "(" = false -> plain c.
Proof.
  intros E F. apply Ascii.eqb_neq in F. repeat split; auto; intros ->; cbn in E; discriminate.
Qed.
Lemma read_atom_spec s : forall a r, read_atom s = Some (a, r) -> s = a ++ r /\ Forall plain a /\ stopped r.
Proof.
  induction s as [|c s IH]; cbn; intros a r.
  - intros [= <- <-]. repeat split; auto.
  - destruct (is_stop c) eqn:E; [intros [= <- <-]; repeat split; auto|].
    destruct (Ascii.eqb c "(") eqn:F; [discriminate|].
    destruct (read_atom s) as [(a', r')|]; [|discriminate]. intros [= <- <-].
    destruct (IH a' r' eq_refl) as (-> & ? & ?). repeat split; auto. constructor; auto. now apply stop_plain.
Qed.
Lemma read_atom_app a r : Forall plain a -> stopped r -> read_atom (a ++ r) = Some (a, r).
Proof.
  intros H S. induction H as [|c a P H IH]; cbn.
  - destruct r as [|c r]; auto. cbn in *. now rewrite S.
  - destruct (plain_stop P) as (-> & ->). now rewrite IH.
Qed.

Lemma is_op_char d : is_op (dir_char d) = Some d.
Proof. now destruct d. Qed.
Lemma is_op_inv c d : is_op c = Some d -> c = dir_char d.
Proof.
  unfold is_op. destruct (Ascii.eqb_spec c "/"); [intros [= <-]; auto|].
  destruct (Ascii.eqb_spec c "\"); [intros [= <-]; auto|discriminate].
Qed.

Scheme bracket_cat_mind := Minimality for bracket_cat Sort Prop
  with cat_str_mind := Minimality for cat_str Sort Prop.
Combined Scheme cat_mind from bracket_cat_mind, cat_str_mind.

Section Parse.
Variable m : string -> string.

Definition clean_ok (p : list ascii -> pout) :=
  forall s t rest, p s = POk t rest -> exists q, s = q ++ rest /\ bracket_cat m q t.
Definition soundc (p : list ascii -> pout) :=
  forall s t rest, p s = POk t rest -> exists q, s = q ++ rest /\ cat_str m q t.

Lemma compound_sound p : clean_ok p -> soundc (parse_compound p).
Proof.
  intros H s t rest. unfold parse_compound. destruct (p s) as [t1 r1| | |] eqn:E; try discriminate.
  apply H in E as (q & -> & B). destruct r1 as [|op r1].
  - intros [= <- <-]. exists q. split; auto. now constructor.
  - destruct (is_op op) as [d|] eqn:O.
    + destruct (p r1) as [t2 r2| | |] eqn:E2; try discriminate. intros [= <- <-].
      apply H in E2 as (q2 & -> & B2). apply is_op_inv in O as ->.
      exists (q ++ dir_char d :: q2). split; [now rewrite <- app_assoc|]. now constructor.
    + intros [= <- <-]. exists q. split; auto. now constructor.
Qed.
Lemma clean_sound f : clean_ok (parse_clean m f).
Proof.
  induction f as [|f IH]; intros s t rest; cbn [parse_clean]; [discriminate|].
  destruct s as [|c s]; [discriminate|].
  destruct (Ascii.eqb_spec c "("); cbn [negb].
  - subst c. destruct (parse_compound _ s) as [t1 r1| | |] eqn:E; try discriminate.
    apply (compound_sound IH) in E as (q & -> & B).
    destruct r1 as [|c2 r1]; [discriminate|]. destruct (Ascii.eqb_spec c2 ")"); [|discriminate].
    intros [= <- <-]. subst. exists ("("%char :: q ++ [")"%char]). split; [cbn; now rewrite <- app_assoc|].
    now constructor.
  - destruct (is_stop c) eqn:S; [discriminate|].
    destruct (read_atom (c :: s)) as [(a, r)|] eqn:E; [|discriminate]. intros [= <- <-].
    apply read_atom_spec in E as E'. destruct E' as (E' & P & St). exists a. split; [auto|].
    constructor; auto. intros ->. cbn in E'. subst r. cbn in St. congruence.
Qed.

Lemma clean_complete :
  (forall q t, bracket_cat m q t -> forall f rest, List.length q < f -> stopped rest ->
     parse_clean m f (q ++ rest) = POk t rest) /\
  (forall q t, cat_str m q t -> forall f rest, List.length q < f ->
     (rest = [] \/ exists r, rest = ")"%char :: r) ->
     parse_compound (parse_clean m f) (q ++ rest) = POk t rest).
Proof.
  apply cat_mind.
  - intros s Hne P f rest L St. destruct f as [|f]; [cbn in L; lia|].
    destruct s as [|c s]; [congruence|]. inversion P as [|? ? Pc Ps]; subst.
    destruct (plain_stop Pc) as (S1 & S2). cbn [app parse_clean].
    rewrite S1, S2. cbn [negb]. change (c :: s ++ rest) with ((c :: s) ++ rest).
    now rewrite read_atom_app.
  - intros s t B IH f rest L St. destruct f as [|f]; [cbn in L; lia|].
    cbn [app parse_clean]. replace (Ascii.eqb "(" "(") with true by reflexivity. cbn [negb].
    rewrite <- app_assoc. cbn [app]. rewrite IH; [|cbn in L; rewrite app_length in L; cbn in L; lia|eauto].
    reflexivity.
  - intros s t B IH f rest L R. unfold parse_compound. rewrite IH; auto.
    + destruct R as [->|(r & ->)]; auto.
    + destruct R as [->|(r & ->)]; cbn; auto.
  - intros s1 t1 d s2 t2 B1 IH1 B2 IH2 f rest L R. unfold parse_compound.
    rewrite app_length in L. cbn in L. rewrite <- app_assoc. rewrite IH1; [|lia|cbn; now destruct d].
    cbn [app]. rewrite is_op_char, IH2; auto; [lia|]. destruct R as [->|(r & ->)]; cbn; auto.
Qed.

Lemma compound_fuel f s : (forall s', List.length s' <= List.length s -> parse_clean m f s' <> PFuel) ->
  parse_compound (parse_clean m f) s <> PFuel.
Proof.
  intros H. unfold parse_compound. destruct (parse_clean m f s) as [t r| | |] eqn:E; try discriminate.
  - destruct r as [|op r]; [discriminate|]. destruct (is_op op); [|discriminate].
    apply clean_sound in E as (q & -> & _).
    assert (parse_clean m f r <> PFuel) by (apply H; rewrite app_length; cbn; lia).
    destruct (parse_clean m f r); congruence.
  - exfalso. apply (H s); auto.
Qed.
Lemma clean_fuel f : forall s, List.length s < f -> parse_clean m f s <> PFuel.
Proof.
  induction f as [|f IH]; intros s L; [lia|]. cbn [parse_clean]. destruct s as [|c s]; [discriminate|].
  destruct (negb _).
  - destruct (is_stop c); [discriminate|]. destruct (read_atom _) as [[]|]; discriminate.
  - assert (parse_compound (parse_clean m f) s <> PFuel).
    { apply compound_fuel. intros s' L'. apply IH. cbn in L. lia. }
    destruct (parse_compound _ s) as [t r| | |]; try discriminate; try congruence.
    destruct r as [|c2 r]; [discriminate|]. destruct (Ascii.eqb c2 ")"); discriminate.
Qed.
End Parse.

Lemma ascii_list_eqb_iff a : forall b, ascii_list_eqb a b = true <-> a = b.
Proof.
  induction a as [|x a IH]; intros [|y b]; cbn; try (split; congruence).
  rewrite andb_true_iff, Ascii.eqb_eq, IH. split; [intros (-> & ->)|intros [= -> ->]]; auto.
Qed.
Lemma ends_with_iff tag s : ends_with tag s = true <-> exists u, s = u ++ tag.
Proof.
  unfold ends_with. rewrite andb_true_iff, Nat.leb_le, ascii_list_eqb_iff. split.
  - intros (L & E). exists (firstn (List.length s - List.length tag) s). rewrite <- E at 2. now rewrite firstn_skipn.
  - intros (u & ->). rewrite app_length. split; [lia|].
    replace (List.length u + List.length tag - List.length tag) with (List.length u) by lia.
    now rewrite skipn_app, skipn_all, Nat.sub_diag.
Qed.
Lemma chop_app tag u : chop tag (u ++ tag) = u.
Proof.
  unfold chop. rewrite app_length. replace (_ + _ - _) with (List.length u) by lia.
  now rewrite firstn_app, firstn_all, Nat.sub_diag, app_nil_r.
Qed.

Lemma compound_iff m s t :
  parse_compound (parse_clean m (S (List.length s))) s = POk t [] <-> cat_str m s t.
Proof.
  split.
  - intro E. apply (compound_sound (@clean_sound m _)) in E as (q & -> & B). now rewrite app_nil_r.
  - intro B. rewrite <- (app_nil_r s) at 2. apply (proj2 (clean_complete m)); auto.
Qed.

Lemma parse_spec m cat t :
  parse_with m cat = Parsed t <-> documented m (list_ascii_of_string cat) t.
Proof.
  unfold parse_with, documented. set (s := list_ascii_of_string cat).
  destruct (ends_with CONJ_TAG s) eqn:E.
  - apply ends_with_iff in E as (u & E). rewrite E, chop_app. split.
    + intro H. left. exists u.
      destruct (parse_compound _ u) as [t0 r| | |] eqn:P; try discriminate.
      destruct r; [|discriminate]. injection H as <-. exists t0. apply compound_iff in P. auto.
    + intros [(u' & t0 & Eu & C & ->)|(H & _)]; [|now elim (H u)].
      apply app_inv_tail in Eu as <-. apply compound_iff in C. now rewrite C.
  - assert (N : forall u, s <> u ++ CONJ_TAG).
    { intros u Eu. assert (ends_with CONJ_TAG s = true) by (apply ends_with_iff; eauto). congruence. }
    split.
    + intro H. right. split; auto. destruct (parse_compound _ s) as [t0 r| | |] eqn:P; try discriminate.
      destruct r; [|discriminate]. injection H as <-. now apply compound_iff in P.
    + intros [(u & t0 & Eu & _)|(_ & C)]; [now elim (N u)|]. apply compound_iff in C. now rewrite C.
Qed.
Lemma parse_no_fuel m cat : parse_with m cat <> ParseFuel.
Proof.
  unfold parse_with. cbv zeta. match goal with |- context [parse_compound (parse_clean m (S (List.length ?x)))] => set (s := x) end.
  assert (H : parse_compound (parse_clean m (S (List.length s))) s <> PFuel).
  { apply compound_fuel. intros s' L. apply clean_fuel. lia. }
  destruct (parse_compound _ s) as [t r| | |]; try discriminate; [|congruence].
  destruct r; discriminate.
Qed.

(** ** Printing *)
Lemma las_app a b : list_ascii_of_string (a ++ b) = list_ascii_of_string a ++ list_ascii_of_string b.
Proof. induction a; cbn; congruence. Qed.
Lemma las_inj a b : list_ascii_of_string a = list_ascii_of_string b -> a = b.
Proof. intro H. rewrite <- (string_of_list_ascii_of_string a), H. apply string_of_list_ascii_of_string. Qed.

Lemma to_string_cat t : good t ->
  cat_str (fun s : string => s) (list_ascii_of_string (to_string t)) t /\
  bracket_cat (fun s : string => s) (list_ascii_of_string (bracket (c_is_complex t) (to_string t))) t.
Proof.
  induction t as [|n|r IHr d a IHa]; cbn [good to_string c_is_complex]; intro G; [easy| |].
  - destruct G as (Ne & P & _).
    assert (B : bracket_cat (fun s : string => s) (list_ascii_of_string n) (CAtom n)).
    { pose proof (@BAtom (fun s : string => s) (list_ascii_of_string n)) as B.
      rewrite string_of_list_ascii_of_string in B. apply B; auto. destruct n; cbn; congruence. }
    cbn [bracket]. split; auto. now constructor.
  - destruct G as (Gr & Ga). destruct (IHr Gr) as (_ & Br), (IHa Ga) as (_ & Ba).
    assert (C : cat_str (fun s : string => s) (list_ascii_of_string (to_string (CSlash r d a))) (CSlash r d a)).
    { cbn [to_string]. rewrite !las_app. cbn [list_ascii_of_string app]. now constructor. }
    split; auto. cbn [bracket]. rewrite las_app. cbn [list_ascii_of_string app]. rewrite las_app.
    cbn [list_ascii_of_string]. now constructor.
Qed.
Lemma in_tag d : ~ In (dir_char d) CONJ_TAG.
Proof. destruct d; cbn; intuition discriminate. Qed.
Lemma to_string_no_conj t : good t -> forall u, list_ascii_of_string (to_string t) <> u ++ CONJ_TAG.
Proof.
  destruct t as [|n|r d a]; cbn [good]; [easy| |].
  - intros (_ & _ & N). exact N.
  - intros (_ & Ga) u. cbn [to_string]. rewrite !las_app. cbn [list_ascii_of_string app].
    set (A := list_ascii_of_string (bracket (c_is_complex r) _)).
    intro E. apply app_eq_app in E as (l & [(E1 & E2)|(E1 & E2)]).
    + apply (@in_tag d). rewrite E2. apply in_or_app. right. now left.
    + destruct l as [|c l].
      * cbn [app] in E2. apply (@in_tag d). rewrite <- E2. now left.
      * cbn [app] in E2. injection E2 as _ E2.
        destruct a as [|n|r' d' a']; cbn [good c_is_complex bracket] in *; [easy| |].
        -- now apply (proj2 (proj2 Ga) l).
        -- rewrite las_app in E2. cbn [list_ascii_of_string app] in E2. rewrite las_app in E2.
           cbn [list_ascii_of_string] in E2. change (CONJ_TAG) with (list_ascii_of_string "[conj" ++ ["]"%char]) in E2.
           rewrite app_assoc, app_comm_cons in E2. apply app_inj_tail in E2 as (_ & E2). discriminate.
Qed.
Lemma parse_to_string t : good t -> parse (to_string t) = Parsed t.
Proof.
  intro G. apply parse_spec. right. split; [now apply to_string_no_conj|]. now apply to_string_cat.
Qed.
Lemma to_string_inj t u : good t -> good u -> to_string t = to_string u -> t = u.
Proof. intros G H E. pose proof (parse_to_string G) as P. rewrite E, (parse_to_string H) in P. congruence. Qed.

(** ** replace *)
Lemma replace_paths o r t : forall t', c_replace o r t = Ok t' ->
  forall p u, at_path t p = Some u ->
  (forall q, (exists k, k <> [] /\ p = q ++ k) -> at_path t q <> Some o) ->
  (u = o -> at_path t' p = Some r) /\
  (u <> o -> exists u', at_path t' p = Some u' /\ same_head u u').
Proof.
  induction t as [|n|x IHx d y IHy]; intros t' E p u A N; cbn [c_replace] in E.
  - destruct (cty_eqb CEmpty o) eqn:Q; [|discriminate]. apply cty_eqb_iff in Q as <-. injection E as <-.
    destruct p; cbn in A; [|discriminate]. injection A as <-. split; [intros _; reflexivity|congruence].
  - destruct p; cbn in A; [|discriminate]. injection A as <-.
    destruct (cty_eqb (CAtom n) o) eqn:Q; injection E as <-.
    + apply cty_eqb_iff in Q. split; [intros _; reflexivity|congruence].
    + apply cty_eqb_false in Q. split; [congruence|]. intros _. exists (CAtom n). cbn. auto.
  - destruct (cty_eqb (CSlash x d y) o) eqn:Q.
    + injection E as <-. apply cty_eqb_iff in Q. destruct p as [|b p].
      * cbn in A. injection A as <-. split; [intros _; reflexivity|congruence].
      * exfalso. apply (N []); [|cbn; congruence]. exists (b :: p). split; [discriminate|reflexivity].
    + apply cty_eqb_false in Q.
      destruct (c_replace o r x) as [x'|] eqn:Ex; cbn [bind] in E; [|discriminate].
      destruct (c_replace o r y) as [y'|] eqn:Ey; cbn [bind] in E; [|discriminate]. injection E as <-.
      destruct p as [|b p].
      * cbn in A. injection A as <-. split; [congruence|]. intros _. eexists. split; [reflexivity|]. reflexivity.
      * cbn [at_path] in A |- *. unfold c_slash. destruct b.
        -- apply (IHx x' eq_refl p u A). intros q (k & Hk & ->) F. apply (N (true :: q)); [|exact F].
           exists k. auto.
        -- apply (IHy y' eq_refl p u A). intros q (k & Hk & ->) F. apply (N (false :: q)); [|exact F].
           exists k. auto.
Qed.
Lemma replace_total o r t : proper t -> exists t', c_replace o r t = Ok t'.
Proof.
  induction t as [|n|x IHx d y IHy]; cbn [proper c_replace]; [easy| |].
  - intros _. destruct (cty_eqb _ _); eauto.
  - intros (Px & Py). destruct (cty_eqb _ _); [eauto|].
    destruct (IHx Px) as (x' & ->), (IHy Py) as (y' & ->). cbn [bind]. eauto.
Qed.

(** ** Spines *)
Fixpoint csize (t : cty) : nat :=
  match t with CSlash r _ a => S (csize r + csize a) | _ => 1 end.
Lemma fill_app a b x : fill (a ++ b) x = fill a (fill b x).
Proof. induction a as [|(d, y) a IH]; cbn; congruence. Qed.
Lemma fill_size ctx x : csize x <= csize (fill ctx x).
Proof. induction ctx as [|(d, y) ctx IH]; cbn; lia. Qed.
Lemma fill_size_lt ctx x : ctx <> [] -> csize x < csize (fill ctx x).
Proof. destruct ctx as [|(d, y) ctx]; [congruence|]. intros _. cbn. pose proof (fill_size ctx x). lia. Qed.
Lemma fill_neq ctx x : ctx <> [] -> fill ctx x <> x.
Proof. intros H E. apply (@fill_size_lt ctx x) in H. rewrite E in H. lia. Qed.
Lemma fill_inj ctx x x' : fill ctx x = fill ctx x' -> x = x'.
Proof. induction ctx as [|(d, y) ctx IH]; cbn; auto. intros [= E]. auto. Qed.
Lemma fill_unique a : forall b x, fill a x = fill b x -> a = b.
Proof.
  induction a as [|(d, y) a IH]; intros b x E.
  - destruct b as [|p b]; auto. exfalso. apply (@fill_neq (p :: b) x); [discriminate|auto].
  - destruct b as [|(d', y') b]; [exfalso; apply (@fill_neq ((d, y) :: a) x); [discriminate|auto]|].
    cbn in E. injection E as E -> ->. f_equal. eauto.
Qed.
Lemma proper_fill ctx x : proper (fill ctx x) -> proper x.
Proof. induction ctx as [|(d, y) ctx IH]; cbn; tauto. Qed.

Lemma mismatch_iff d c : mismatch d c = false <-> allows c d.
Proof.
  unfold mismatch, allows. rewrite andb_false_iff, !negb_false_iff, !Ascii.eqb_eq. intuition congruence.
Qed.
Lemma mismatch_true d c : mismatch d c = true <-> ~ allows c d.
Proof. rewrite <- mismatch_iff. destruct (mismatch d c); intuition congruence. Qed.

Lemma admissible_cons c0 c1 p ctx : allows c1 (fst p) -> admissible c0 c1 ctx -> admissible c0 c1 (p :: ctx).
Proof. intros A (pre & d & y & -> & A0 & F). exists (p :: pre), d, y. auto. Qed.
Lemma admissible_one c0 c1 d y : allows c0 d -> admissible c0 c1 [(d, y)].
Proof. intro A. exists [], d, y. auto. Qed.
Lemma admissible_inv c0 c1 p ctx : admissible c0 c1 (p :: ctx) ->
  (ctx = [] /\ allows c0 (fst p)) \/ (allows c1 (fst p) /\ admissible c0 c1 ctx).
Proof.
  intros (pre & d & y & E & A & F). destruct pre as [|q pre]; cbn in E; injection E as -> ->.
  - left. auto.
  - right. inversion F; subst. split; auto. exists pre, d, y. auto.
Qed.
Lemma admissible_ne c0 c1 ctx : admissible c0 c1 ctx -> ctx <> [].
Proof. intros (pre & d & y & -> & _). now destruct pre. Qed.

Lemma below_cons o p ctx u : below o ctx u -> below o (p :: ctx) u.
Proof. intros (a & b & -> & A & B & E). exists (p :: a), b. repeat split; auto. discriminate. Qed.

Lemma rr_spec o r c0 c1 t : forall t' old, replace_result_loop o r c0 c1 t = Ok (t', old) ->
  match old with
  | Some x => exists ctx, admissible c0 c1 ctx /\ t = fill ctx x /\ t' = fill ctx r /\
      (forall ctx' u, ctx' <> [] -> x = fill ctx' u -> admissible c0 c1 (ctx ++ ctx') ->
         x = o \/ below o (ctx ++ ctx') u)
  | None => t' = t /\ forall ctx u, t = fill ctx u -> admissible c0 c1 ctx -> below o ctx u
  end.
Proof.
  induction t as [|n|x IHx d y _]; intros t' old E; cbn [replace_result_loop] in E; [discriminate| |].
  - injection E as <- <-. split; auto. intros ctx u E A. exfalso.
    destruct ctx as [|(d, y) ctx]; [now apply admissible_ne in A|discriminate].
  - (* what happens when this slash's own result is considered *)
    assert (Leaf : (x = o \/ c_is_atomic x = true \/ ~ allows c1 d \/
                    (forall ctx u, x = fill ctx u -> admissible c0 c1 ctx -> below o ctx u)) ->
      (if mismatch d c0 then Ok (CSlash x d y, None) else Ok (c_slash r d y, Some x)) = Ok (t', old) ->
      match old with
      | Some x0 => exists ctx, admissible c0 c1 ctx /\ CSlash x d y = fill ctx x0 /\ t' = fill ctx r /\
          (forall ctx' u, ctx' <> [] -> x0 = fill ctx' u -> admissible c0 c1 (ctx ++ ctx') ->
             x0 = o \/ below o (ctx ++ ctx') u)
      | None => t' = CSlash x d y /\ forall ctx u, CSlash x d y = fill ctx u -> admissible c0 c1 ctx -> below o ctx u
      end).
    { intros Why E'.
      assert (Deep : forall ctx' u, ctx' <> [] -> x = fill ctx' u -> admissible c0 c1 ((d, y) :: ctx') ->
               x = o \/ below o ((d, y) :: ctx') u).
      { intros ctx' u Hne Ex A. apply admissible_inv in A as [(-> & _)|(A1 & A)]; [congruence|]. cbn in A1.
        destruct Why as [W|[W|[W|W]]]; [auto|..].
        - destruct ctx' as [|(? & ?) ?]; [congruence|]. rewrite Ex in W. discriminate.
        - contradiction.
        - right. apply below_cons. eauto. }
      destruct (mismatch d c0) eqn:M; injection E' as <- <-.
      - split; auto. intros ctx u Ef A. destruct ctx as [|(d', y') ctx]; [now apply admissible_ne in A|].
        cbn in Ef. injection Ef as Ex <- <-. destruct ctx as [|p ctx].
        + apply admissible_inv in A as [(_ & A)|(_ & A)]; [|now apply admissible_ne in A].
          cbn in A. apply mismatch_true in M. contradiction.
        + assert (Hne : p :: ctx <> []) by discriminate.
          destruct (Deep _ _ Hne Ex A) as [Eo|B]; auto.
          exists [(d, y)], (p :: ctx). repeat split; auto; [discriminate|congruence].
      - apply mismatch_iff in M. exists [(d, y)]. split; [now apply admissible_one|]. split; [reflexivity|]. split; [reflexivity|].
        intros ctx' u Hne Ex A. exact (Deep ctx' u Hne Ex A). }
    destruct (cty_eqb x o || c_is_atomic x) eqn:Q; cbn [bind] in E.
    { apply Leaf; auto. apply orb_true_iff in Q as [Q|Q]; [apply cty_eqb_iff in Q|]; auto. }
    destruct (mismatch d c1) eqn:M1; cbn [bind] in E.
    { apply Leaf; auto. apply mismatch_true in M1. auto. }
    destruct (replace_result_loop o r c0 c1 x) as [(nx, ox)|] eqn:Ex; cbn [bind] in E; [|discriminate].
    apply mismatch_iff in M1. specialize (IHx _ _ eq_refl). destruct ox as [ox|].
    + injection E as <- <-. destruct IHx as (ctx & A & -> & -> & D). exists ((d, y) :: ctx).
      repeat split; auto; [now apply admissible_cons|].
      intros ctx' u Hne Eo A'. cbn [app] in A' |- *.
      apply admissible_inv in A' as [(A' & _)|(_ & A')].
      * destruct ctx; cbn in A'; [congruence|discriminate].
      * destruct (D _ _ Hne Eo A') as [|B]; auto. right. now apply below_cons.
    + destruct IHx as (_ & D). apply Leaf; auto.
Qed.

(** the named category is found whenever it is on the spine at an admissible place *)
Lemma rr_complete o r c0 c1 ctx : admissible c0 c1 ctx ->
  replace_result_loop o r c0 c1 (fill ctx o) = Ok (fill ctx r, Some o).
Proof.
  induction ctx as [|(d, y) ctx IH]; intro A; [now apply admissible_ne in A|].
  cbn [fill replace_result_loop]. apply admissible_inv in A as [(-> & A)|(A1 & A)]; cbn [fst] in *.
  - cbn [fill]. rewrite cty_eqb_refl. cbn [orb bind]. apply mismatch_iff in A. now rewrite A.
  - assert (Hne := admissible_ne A). rewrite (cty_eqb_neq (fill_neq (x := o) Hne)).
    assert (Q : c_is_atomic (fill ctx o) = false) by (destruct ctx as [|(? & ?) ?]; [congruence|reflexivity]).
    rewrite Q. cbn [orb]. apply mismatch_iff in A1. rewrite A1. rewrite (IH A). reflexivity.
Qed.

(** ** Pregroup translation of a spine *)
Definition lctx (ctx : list (dir * cty)) : ty :=
  List.concat (map (fun p => match fst p with Under => ty_r (to_grammar (snd p)) | Over => [] end) ctx).
Fixpoint rctx (ctx : list (dir * cty)) : ty :=
  match ctx with
  | [] => []
  | (Over, a) :: c => rctx c ++ ty_l (to_grammar a)
  | (Under, _) :: c => rctx c
  end.
Lemma to_grammar_fill ctx x : to_grammar (fill ctx x) = lctx ctx ++ to_grammar x ++ rctx ctx.
Proof.
  induction ctx as [|(d, y) ctx IH]; cbn [fill to_grammar].
  - cbn. now rewrite app_nil_r.
  - unfold lctx in *. destruct d; cbn [map List.concat fst snd rctx]; rewrite IH; now rewrite ?app_assoc.
Qed.
Lemma split_fill ctx base : forall l r,
  split_loop base l r (fill ctx base) = Ok (l ++ lctx ctx, to_grammar base, rctx ctx ++ r).
Proof.
  induction ctx as [|(d, y) ctx IH]; intros l r.
  - assert (H : forall l r, split_loop base l r base = Ok (l, to_grammar base, r)).
    { intros. destruct base; cbn [split_loop]; now rewrite cty_eqb_refl. }
    unfold lctx. cbn. rewrite app_nil_r. apply H.
  - cbn [fill split_loop].
    rewrite cty_eqb_neq by (apply (@fill_neq ((d, y) :: ctx) base); discriminate).
    unfold lctx in *. destruct d; rewrite IH; cbn [map List.concat fst snd rctx]; now rewrite ?app_nil_r, <- ?app_assoc.
Qed.
Lemma split_inv base t : forall l0 r0 l m r, split_loop base l0 r0 t = Ok (l, m, r) -> exists ctx, t = fill ctx base.
Proof.
  induction t as [|n|x IHx d y IHy]; intros l0 r0 l m r; cbn [split_loop].
  - destruct (cty_eqb _ _) eqn:E; [|discriminate]. apply cty_eqb_iff in E. exists []. auto.
  - destruct (cty_eqb _ _) eqn:E; [|discriminate]. apply cty_eqb_iff in E. exists []. auto.
  - destruct (cty_eqb _ _) eqn:E; [apply cty_eqb_iff in E; exists []; auto|].
    intro H. assert (exists ctx, x = fill ctx base) as (ctx & ->) by (destruct d; eauto).
    exists ((d, y) :: ctx). reflexivity.
Qed.
Lemma to_grammar_nonempty t : proper t -> to_grammar t <> [].
Proof.
  induction t as [|n|x IHx d y IHy]; cbn; [easy|discriminate|]. intros (Px & Py).
  destruct d; intro E; apply app_eq_nil in E as (E1 & E2); now apply IHx.
Qed.
