From Verif Require Import PyBase PyFacts ReaderModel RewFacts PbModel PbSpec PbFacts.
Close Scope string_scope. Set Implicit Arguments. Unset Strict Implicit.
Lemma full_in A (blank : A -> bool) l x : In x (full blank l) <-> In x l /\ blank x = false.
Proof. unfold full. rewrite filter_In, negb_true_iff. reflexivity. Qed.
Lemma exists_nil ss : existsb no_tokens ss = true <-> In [] ss.
Proof. rewrite existsb_exists. split; [intros ([|] & H & E); [exact H | discriminate] | intros H; now exists []]. Qed.
Lemma not_nil ss : existsb no_tokens ss = false <-> ~ In [] ss.
Proof. rewrite <- exists_nil. destruct (existsb no_tokens ss); intuition congruence. Qed.
Lemma blank_nil s : no_tokens s = true <-> s = []. Proof. destruct s; cbn; intuition congruence. Qed.
Lemma blank_cons s : no_tokens s = false <-> s <> []. Proof. destruct s; cbn; intuition congruence. Qed.
Lemma bobcat_true (T G : Type) (tag : list sentence -> res (list G)) (parse1 : sentence * G -> res T) (bs : nat) tokenised xs ss : (0 < bs)%nat -> (forall b, exists gs, tag b = Ok gs /\ List.length gs = List.length b) -> reads tokenised xs ss ->
  exists out, bobcat_trees tag parse1 bs tokenised true xs = Ok out /\ List.length out = List.length ss /\
    forall i s, nth_error ss i = Some s -> (s = [] /\ nth_error out i = Some None) \/ (s <> [] /\ exists b gs j g, incl b ss /\ tag b = Ok gs /\ nth_error b j = Some s /\ nth_error gs j = Some g /\ nth_error out i = Some (outcome parse1 (s, g))).
Proof.
  intros Hb Tg R. unfold bobcat_trees. rewrite (validate_ok true R). cbn [bind fst snd]. destruct (@tag_all_ok G tag Tg bs (full no_tokens ss) Hb) as (r & Er & Mr & Fr).
  assert (E : (match full no_tokens ss with [] => Ok [] | _ => do gs <- tag_all tag bs (full no_tokens ss); mapM (attempt true OtherError parse1) gs end) = Ok (map (outcome parse1) r)).
  { rewrite Er. cbn [bind]. rewrite attempt_true. destruct (full no_tokens ss); [|reflexivity]. destruct r; [reflexivity | discriminate]. }
  rewrite E. cbn [bind]. destruct (@put_holes_gen _ T no_tokens (map (outcome parse1) r) ss) as (out & Hp & L & N). { rewrite map_length, <- (map_length fst r), Mr. reflexivity. }
  exists out. split; [f_equal; exact (Hp [])|]. split; [exact L|]. intros i s Hs. specialize (N i s Hs). destruct (no_tokens s) eqn:B.
  - left. split; [now apply blank_nil | exact N].
  - right. split; [now apply blank_cons|]. destruct N as (j & N1 & N2). rewrite <- Mr, nth_error_map in N1. rewrite nth_error_map in N2. destruct (nth_error r j) as [[s' g]|] eqn:Ej; [|discriminate]. cbn in N1, N2. injection N1 as ->. assert (I := nth_error_In _ _ Ej). rewrite Forall_forall in Fr. destruct (Fr _ I) as (b & gs & k & I1 & I2 & I3 & I4).
    exists b, gs, k, g. split; [|now split; [|split; [|split]]]. intros x Hx. apply I1, full_in in Hx. tauto.
Qed.
Lemma bobcat_false (T G : Type) (tag : list sentence -> res (list G)) (parse1 : sentence * G -> res T) (bs : nat) tokenised xs ss : (0 < bs)%nat -> (forall b, exists gs, tag b = Ok gs /\ List.length gs = List.length b) -> reads tokenised xs ss ->
  match bobcat_trees tag parse1 bs tokenised false xs with
  | Err _ => In [] ss \/ exists b gs j s g e, incl b ss /\ tag b = Ok gs /\ nth_error b j = Some s /\ nth_error gs j = Some g /\ parse1 (s, g) = Err e
  | Ok out => ~ In [] ss /\ List.length out = List.length ss /\ forall i s, nth_error ss i = Some s -> exists b gs j g t, incl b ss /\ tag b = Ok gs /\ nth_error b j = Some s /\ nth_error gs j = Some g /\ parse1 (s, g) = Ok t /\ nth_error out i = Some (Some t)
  end.
Proof.
  intros Hb Tg R. unfold bobcat_trees. rewrite (validate_ok false R). destruct (existsb no_tokens ss) eqn:Ex; [left; now apply exists_nil|]. apply not_nil in Ex. cbn [bind fst snd]. destruct (@tag_all_ok G tag Tg bs ss Hb) as (r & Er & Mr & Fr). rewrite Forall_forall in Fr.
  assert (E : (match ss with [] => Ok [] | _ => do gs <- tag_all tag bs ss; mapM (attempt false OtherError parse1) gs end) = mapM (attempt false OtherError parse1) r).
  { rewrite Er. cbn [bind]. destruct ss; [|reflexivity]. destruct r; [reflexivity | discriminate]. }
  rewrite E, attempt_false. destruct (forallb _ r) eqn:Fb; cbn [bind].
  - split; [exact Ex|]. unfold put_back. cbn [fold_left]. split; [rewrite map_length, <- (map_length fst r), Mr; reflexivity|]. intros i s Hs. rewrite <- Mr, nth_error_map in Hs. destruct (nth_error r i) as [[s' g]|] eqn:Ej; [|discriminate]. injection Hs as ->. assert (I := nth_error_In _ _ Ej). destruct (Fr _ I) as (b & gs & k & I1 & I2 & I3 & I4).
    rewrite forallb_forall in Fb. specialize (Fb _ I). cbn beta in Fb. destruct (parse1 (s, g)) as [t|] eqn:Ep; [|discriminate]. exists b, gs, k, g, t. split; [exact I1|]. split; [exact I2|]. split; [exact I3|]. split; [exact I4|]. split; [exact Ep|]. rewrite nth_error_map, Ej. cbn. unfold outcome. now rewrite Ep.
  - right. assert (X : exists x, In x r /\ is_ok (parse1 x) = false). { clear - Fb. induction r as [|x r IH]; [discriminate|]. cbn in Fb. apply andb_false_iff in Fb. destruct Fb as [Fb|Fb]; [exists x; split; [now left | exact Fb] | destruct (IH Fb) as (z & Hz & Ez); exists z; split; [now right | exact Ez]]. }
    destruct X as ([s g] & I & Ep). destruct (Fr _ I) as (b & gs & k & I1 & I2 & I3 & I4). destruct (parse1 (s, g)) as [t|e] eqn:Ep'; [discriminate|]. exists b, gs, k, s, g, e. auto.
Qed.
(** one sentence at a time *)
Lemma simple_true A B (blank : A -> bool) (f : A -> option B) ss : put_back (map f (full blank ss)) (holes blank 0 ss) = map (fun s => if blank s then None else f s) ss.
Proof. assert (X := @put_holes A B blank (fun s => if blank s then None else f s) f ss). cbv beta in X. apply X with (p := []); intros a _ H; now rewrite H. Qed.
Lemma oncilla_ok (T : Type) (pred : sentence -> res (list T)) (fc : T -> T) tokenised xs ss : reads tokenised xs ss ->
  let entry s := match s with [] => None | _ => match pred (drop_stop s) with Ok [r] => Some (fc r) | _ => None end end in
  oncilla_trees pred fc tokenised true xs = Ok (map entry ss) /\
  match oncilla_trees pred fc tokenised false xs with Ok out => out = map entry ss /\ ~ In None out | Err _ => In None (map entry ss) end.
Proof.
  intros R entry. assert (Ee : forall s, (if no_tokens s then None else outcome (oncilla1 pred fc) s) = entry s). { intros s. unfold entry, outcome, oncilla1. destruct s as [|w s]; [reflexivity|]. cbn [no_tokens]. destruct (pred _) as [[|r [|]]|]; reflexivity. }
  unfold oncilla_trees. split.
  - rewrite (validate_ok true R). cbn [bind fst snd]. rewrite attempt_true. cbn [bind]. rewrite simple_true. f_equal. apply map_ext. exact Ee.
  - rewrite (validate_ok false R). destruct (existsb no_tokens ss) eqn:Ex. { cbn [bind]. apply exists_nil in Ex. exact (in_map entry _ _ Ex). }
    apply not_nil in Ex. cbn [bind fst snd]. rewrite attempt_false. destruct (forallb _ ss) eqn:Fb; cbn [bind].
    + unfold put_back. cbn [fold_left]. assert (M : map (outcome (oncilla1 pred fc)) ss = map entry ss). { apply map_ext_in. intros s Hs. rewrite <- Ee. destruct s; [contradiction | reflexivity]. } split; [exact M|]. intros H. apply in_map_iff in H. destruct H as (s & Es & Hs). rewrite forallb_forall in Fb. specialize (Fb s Hs). cbn beta in Fb. unfold outcome in Es. destruct (oncilla1 pred fc s); discriminate.
    + assert (X : exists x, In x ss /\ is_ok (oncilla1 pred fc x) = false). { clear - Fb. induction ss as [|x r IH]; [discriminate|]. cbn in Fb. apply andb_false_iff in Fb. destruct Fb as [Fb|Fb]; [exists x; split; [now left | exact Fb] | destruct (IH Fb) as (z & Hz & Ez); exists z; split; [now right | exact Ez]]. }
      destruct X as (s & Hs & Ep). apply in_map_iff. exists s. split; [|exact Hs]. rewrite <- Ee. destruct (no_tokens s); [reflexivity|]. unfold outcome. destruct (oncilla1 pred fc s); [discriminate | reflexivity].
Qed.
Lemma web_ok (T J : Type) (get : string -> res J) (from_json : J -> res T) (tokenised : bool) (xs : list input) (strs : list string) : (forall j, exists t, from_json j = Ok t) -> (if tokenised then exists ss, xs = map Toks ss /\ strs = map (String.concat " "%string) ss else exists ts, xs = map Str ts /\ strs = map (fun s => String.concat " "%string (py_split s)) ts) ->
  let entry s := if (s =? "")%string then None else match get s with Ok j => outcome from_json j | Err _ => None end in
  web_trees get from_json tokenised true xs = Ok (map entry strs) /\
  match web_trees get from_json tokenised false xs with Ok out => out = map entry strs /\ ~ In None out | Err _ => In None (map entry strs) end.
Proof.
  intros Hj R entry. assert (Ers : (if tokenised then rmap (map (String.concat " "%string)) (mapM as_toks xs) else rmap (map (fun s => String.concat " "%string (py_split s))) (mapM as_str xs)) = Ok strs).
  { destruct tokenised.
    - destruct R as (ss & -> & ->). assert (E := @reads_ok true (map Toks ss) ss eq_refl). cbn in E. rewrite E. reflexivity.
    - destruct R as (ts & -> & ->). assert (E : mapM as_str (map Str ts) = Ok ts) by (clear; induction ts as [|s ts IH]; [reflexivity|]; cbn [map mapM as_str bind]; now rewrite IH). rewrite E. reflexivity. }
  assert (W : forall s, web1 get from_json true s = Ok (match get s with Ok j => outcome from_json j | Err _ => None end)). { intros s. unfold web1, attempt, outcome. destruct (get s) as [j|]; cbn [bind]; [|reflexivity]. destruct (Hj j) as [t ->]. reflexivity. }
  assert (W2 : forall s, web1 get from_json false s = match get s with Ok j => Ok (outcome from_json j) | Err _ => Err OtherError end). { intros s. unfold web1, attempt, outcome. destruct (get s) as [j|]; cbn [bind]; [|reflexivity]. destruct (Hj j) as [t ->]. reflexivity. }
  unfold web_trees. rewrite Ers. cbn [bind]. split.
  - rewrite empties_true. cbn [bind]. assert (X := drop_holes blank_str strs []). cbn [app List.length] in X. rewrite X. rewrite (mapM_map (g := fun s => match get s with Ok j => outcome from_json j | Err _ => None end)) by (intros; apply W). cbn [bind]. rewrite simple_true. reflexivity.
  - rewrite empties_false. destruct (existsb blank_str strs) eqn:Ex; cbn [bind].
    + apply existsb_exists in Ex. destruct Ex as (s & Hs & Eb). apply in_map_iff. exists s. split; [|exact Hs]. unfold entry. unfold blank_str in Eb. now rewrite Eb.
    + rewrite drop_none. assert (Nb : forall s, In s strs -> (s =? "")%string = false). { intros s Hs. destruct (s =? "")%string eqn:E; [|reflexivity]. assert (existsb blank_str strs = true) by (apply existsb_exists; exists s; auto). congruence. }
      destruct (mapM _ strs) as [out|e] eqn:M; cbn [bind].
      * unfold put_back. cbn [fold_left]. apply mapM_inv in M. assert (Q : out = map entry strs /\ ~ In None out); [|exact Q]. clear Ex Ers R. induction M as [|s o strs out H M IH]; [split; [reflexivity | intros []]|]. destruct IH as [-> IH2]; [intros; apply Nb; now right|]. rewrite W2 in H. destruct (get s) as [j|] eqn:Eg; [|discriminate]. injection H as <-. split.
        -- cbn [map]. f_equal. unfold entry. rewrite Nb by now left. now rewrite Eg.
        -- intros [H|H]; [|now apply IH2]. unfold outcome in H. destruct (Hj j) as [t E]. rewrite E in H. discriminate.
      * apply mapM_err in M. destruct M as (s & Hs & M). rewrite W2 in M. apply in_map_iff. exists s. split; [|exact Hs]. unfold entry. rewrite Nb by exact Hs. destruct (get s); [discriminate | reflexivity].
Qed.
Lemma dep_ok (T D : Type) (parses : list sentence -> res (list (list (option T)))) (build : T -> res D) tokenised xs ss : reads tokenised xs ss ->
  (forall b, exists ps, parses b = Ok ps /\ List.length ps = List.length b /\ ~ In [] ps) -> (forall t, exists d, build t = Ok d) ->
  exists out rest_, dep_trees parses build tokenised true xs = Ok (out, rest_) /\ List.length out = List.length ss /\
    forall i s, nth_error ss i = Some s -> (s = [] /\ nth_error out i = Some None) \/ (s <> [] /\ exists b ps j p, incl b ss /\ parses b = Ok ps /\ nth_error b j = Some s /\ nth_error ps j = Some p /\ nth_error out i = Some (match p with Some t :: _ => outcome build t | _ => None end)).
Proof.
  intros R Hp Hb. unfold dep_trees. rewrite (reads_ok R). cbn [bind]. rewrite empties_true. cbn [bind]. cbv zeta. assert (X := drop_holes no_tokens ss []). cbn [app List.length] in X. rewrite X. destruct (Hp (full no_tokens ss)) as (ps & Ep & Lp & Np). set (g := fun x : list (option T) * sentence => match fst x with Some t :: _ => outcome build t | _ => None end).
  assert (E : (match full no_tokens ss with [] => Ok [] | _ => do ps <- parses (full no_tokens ss); mapM (dep1 build true) (combine ps (full no_tokens ss)) end) = Ok (map g (combine ps (full no_tokens ss)))).
  { rewrite Ep. cbn [bind]. assert (M : mapM (dep1 build true) (combine ps (full no_tokens ss)) = Ok (map g (combine ps (full no_tokens ss)))). { apply mapM_map. intros [p s] H. apply in_combine_l in H. unfold dep1, g, outcome. cbn [fst]. destruct p as [|[t|] p]; [contradiction | destruct (Hb t) as [d ->]; reflexivity | reflexivity]. }
    rewrite M. destruct (full no_tokens ss); [|reflexivity]. destruct ps; [reflexivity | discriminate]. }
  rewrite E. cbn [bind]. destruct (@put_holes_gen _ D no_tokens (map g (combine ps (full no_tokens ss))) ss) as (out & Ho & L & N). { rewrite map_length, combine_length. lia. }
  exists out. eexists. split; [f_equal; f_equal; exact (Ho [])|]. split; [exact L|]. intros i s Hs. specialize (N i s Hs). destruct (no_tokens s) eqn:B.
  - left. split; [now apply blank_nil | exact N].
  - right. split; [now apply blank_cons|]. destruct N as (j & N1 & N2). rewrite nth_error_map in N2. destruct (nth_error ps j) as [p|] eqn:Epj.
    + assert (Ec : nth_error (combine ps (full no_tokens ss)) j = Some (p, s)). { clear - N1 Epj. revert j N1 Epj. generalize (full no_tokens ss). induction ps as [|q ps IH]; intros l [|j] H1 H2; try discriminate; destruct l as [|a l]; try discriminate; cbn in *; [congruence | eauto]. }
      rewrite Ec in N2. cbn in N2. exists (full no_tokens ss), ps, j, p. split; [intros x Hx; apply full_in in Hx; tauto|]. split; [exact Ep|]. split; [exact N1|]. split; [exact Epj|]. rewrite <- N2. reflexivity.
    + exfalso. apply nth_error_None in Epj. assert (j < List.length (full no_tokens ss))%nat by (apply nth_error_Some; congruence). lia.
Qed.
Lemma dep_input (T D : Type) (parses : list sentence -> res (list (list (option T)))) (build : T -> res D) tokenised suppress xs ss out xs' : reads tokenised xs ss -> tokenised = false \/ ~ In [] ss -> dep_trees parses build tokenised suppress xs = Ok (out, xs') -> xs' = xs.
Proof.
  intros R H. unfold dep_trees. rewrite (reads_ok R). cbn [bind]. assert (E : tokenised = true -> exists es, empties no_tokens suppress 0 ss = Ok es /\ drop_all ss es = ss).
  { intros ->. destruct H as [H|H]; [discriminate|]. apply not_nil in H. destruct suppress; [rewrite empties_true, no_holes by exact H | rewrite empties_false, H]; now exists []. }
  destruct tokenised.
  - destruct (E eq_refl) as (es & -> & Ed). cbn [bind]. cbv zeta. rewrite Ed. intros Q. destruct (match ss with [] => _ | _ => _ end) in Q; [|discriminate]. cbn [bind] in Q. injection Q as _ <-. symmetry. exact R.
  - destruct (empties _ _ _ _); [|discriminate]. cbn [bind]. cbv zeta. intros Q. destruct (match drop_all ss a with [] => _ | _ => _ end) in Q; [|discriminate]. cbn [bind] in Q. now injection Q as _ <-.
Qed.
Lemma type_check (T D G J : Type) (tag : list sentence -> res (list G)) (parse1 : sentence * G -> res T) pred (fc : T -> T) (get : string -> res J) from_json parses (build : T -> res D) bs tokenised suppress xs x :
  In x xs -> match x with Str _ => tokenised = true | Toks _ => tokenised = false end ->
  bobcat_trees tag parse1 bs tokenised suppress xs = Err ValueError /\ oncilla_trees pred fc tokenised suppress xs = Err ValueError /\ web_trees (T := T) get from_json tokenised suppress xs = Err ValueError /\ dep_trees parses build tokenised suppress xs = Err ValueError.
Proof.
  intros Hx Hk. assert (E : if tokenised then mapM as_toks xs = Err ValueError else mapM as_str xs = Err ValueError).
  { destruct tokenised.
    - assert (Q : exists e, mapM as_toks xs = Err e) by (destruct x; [|discriminate]; exact (mapM_bad (f := as_toks) Hx eq_refl)). destruct Q as [e Q]. rewrite Q. apply mapM_err in Q. destruct Q as ([s|l] & _ & Q); [injection Q as <-; reflexivity | discriminate].
    - assert (Q : exists e, mapM as_str xs = Err e) by (destruct x; [discriminate|]; exact (mapM_bad (f := as_str) Hx eq_refl)). destruct Q as [e Q]. rewrite Q. apply mapM_err in Q. destruct Q as ([s|l] & _ & Q); [discriminate | injection Q as <-; reflexivity]. }
  unfold bobcat_trees, oncilla_trees, web_trees, dep_trees, validate. destruct tokenised; rewrite E; repeat split; reflexivity.
Qed.
Lemma diagrams_ok (T D : Type) (to_diagram : T -> res D) ts : let entry t := match t with None => None | Some t => outcome to_diagram t end in
  trees2diagrams to_diagram true ts = Ok (map entry ts) /\ (forall out, trees2diagrams to_diagram false ts = Ok out -> out = map entry ts /\ forall i t, nth_error ts i = Some (Some t) -> exists d, nth_error out i = Some (Some d) /\ to_diagram t = Ok d).
Proof.
  intros entry. split.
  - apply mapM_map. intros [t|] _; [|reflexivity]. cbn. unfold outcome. now destruct (to_diagram t).
  - intros out H. apply mapM_inv in H. induction H as [|t o ts out H F [-> IH]]; [split; [reflexivity | intros [|i] t; discriminate]|]. split.
    + cbn [map]. f_equal. destruct t as [t|]; cbn; [|congruence]. unfold outcome. destruct (to_diagram t); [congruence | discriminate].
    + intros [|i] t'; [|apply IH]. cbn. intros [= ->]. destruct (to_diagram t') as [d|]; [|discriminate]. injection H as <-. now exists d.
Qed.
Lemma drop_stop_end t : drop_stop (t ++ ["."%string]) = t.
Proof. unfold drop_stop. rewrite rev_app_distr. cbn. apply rev_involutive. Qed.
Lemma drop_stop_other s : (forall t, s <> t ++ ["."%string]) -> drop_stop s = s.
Proof.
  intros H. unfold drop_stop. destruct (rev s) as [|w s'] eqn:E; [reflexivity|]. destruct (String.eqb_spec w "."%string) as [-> |]; [|reflexivity]. exfalso. apply (H (rev s')). rewrite <- (rev_involutive s), E. reflexivity.
Qed.
Lemma dep_strict (T D : Type) (parses : list sentence -> res (list (list (option T)))) (build : T -> res D) tokenised xs ss ps : reads tokenised xs ss ->
  parses ss = Ok ps -> List.length ps = List.length ss -> ~ In [] ps -> (forall t, exists d, build t = Ok d) ->
  match dep_trees parses build tokenised false xs with
  | Err _ => In [] ss \/ exists p, In p ps /\ hd_error p = Some None
  | Ok (out, _) => ~ In [] ss /\ List.length out = List.length ss /\ forall i p, nth_error ps i = Some p -> exists t d, hd_error p = Some (Some t) /\ build t = Ok d /\ nth_error out i = Some (Some d)
  end.
Proof.
  intros R Ep Lp Np Hb. unfold dep_trees. rewrite (reads_ok R). cbn [bind]. rewrite empties_false. destruct (existsb no_tokens ss) eqn:Ex; [left; now apply exists_nil|]. apply not_nil in Ex. cbn [bind]. cbv zeta. rewrite drop_none.
  assert (E : (match ss with [] => Ok [] | _ => do ps <- parses ss; mapM (dep1 build false) (combine ps ss) end) = mapM (dep1 build false) (combine ps ss)).
  { rewrite Ep. cbn [bind]. destruct ss; [|reflexivity]. destruct ps; [reflexivity | discriminate]. }
  rewrite E. assert (Q : forall i p, nth_error ps i = Some p -> exists s, nth_error (combine ps ss) i = Some (p, s)).
  { clear - Lp. revert ss Lp. induction ps as [|q ps IH]; intros [|s ss] L [|i] p H; try discriminate; cbn in *; [injection H as <-; now exists s | apply IH; [now injection L | exact H]]. }
  destruct (mapM _ _) as [out|e] eqn:M; cbn [bind].
  - split; [exact Ex|]. unfold put_back. cbn [fold_left]. apply mapM_inv in M. split. { clear - M Lp. assert (L : List.length (combine ps ss) = List.length out) by (clear Lp; induction M; cbn; congruence). rewrite combine_length in L. unfold sentence in *. lia. }
    intros i p Hp. destruct (Q i p Hp) as (s & Hs). assert (Hp' := nth_error_In _ _ Hp). clear Q Hp E. revert i Hs. induction M as [|x o l out H M IH]; intros [|i] Hs; try discriminate; [|exact (IH i Hs)]. cbn in Hs. injection Hs as ->. unfold dep1 in H. cbn [fst] in H. destruct p as [|[t|] p]; try discriminate. destruct (Hb t) as [d Ed]. rewrite Ed in H. injection H as <-. exists t, d. auto.
  - right. apply mapM_err in M. destruct M as ([p s] & Hin & M). apply in_combine_l in Hin. exists p. split; [exact Hin|]. unfold dep1 in M. cbn [fst] in M. destruct p as [|[t|] p]; [contradiction | | reflexivity]. destruct (Hb t) as [d Ed]. rewrite Ed in M. discriminate.
Qed.
