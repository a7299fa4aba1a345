(** Proofs: reading what was written. *)
From Coq Require Import Ascii.
From Verif Require Import PyBase PyFacts BobModel BtModel LxModel LxSpec.
Close Scope string_scope. Set Implicit Arguments. Unset Strict Implicit.
Notation len := List.length.

Lemma unstr_str l : unstr (str l) = l. Proof. apply list_ascii_of_string_of_list_ascii. Qed.
Lemma unstr_app a b : unstr (a ++ b)%string = unstr a ++ unstr b. Proof. unfold unstr. induction a; cbn; auto. now f_equal. Qed.

(** ** the regular expressions *)
Definition head_not (p : ascii -> bool) (l : chars) : Prop := match l with c :: _ => p c = false | [] => True end.
Lemma span_all p a l : forallb p a = true -> head_not p l -> span p (a ++ l) = (a, l).
Proof.
  intros F H. induction a as [|x a IH]; cbn in *; [destruct l as [|y l]; cbn in *; auto; now rewrite H|]. apply andb_prop in F as (F1 & F2). rewrite F1, (IH F2). reflexivity.
Qed.
Lemma span_len p l : len (snd (span p l)) <= len l /\ (fst (span p l) <> [] -> len (snd (span p l)) < len l).
Proof. induction l as [|x l (IH & _)]; cbn; [split; [auto|congruence]|]. destruct (p x); cbn; [|split; [lia|congruence]]. destruct (span p l); cbn in *. split; [lia|intros; lia]. Qed.
Lemma group_some o p st c v rest : v <> [] -> forallb p v = true -> p c = false -> Ascii.eqb c "*" = false -> group o p st c (o :: v ++ c :: rest) = (Some v, rest).
Proof.
  intros N F P S. unfold group. rewrite Ascii.eqb_refl, (span_all (l := c :: rest) F P). rewrite S, andb_false_r. destruct v; [congruence|]. now rewrite Ascii.eqb_refl.
Qed.
Lemma group_none o p st c s : head_not (Ascii.eqb o) s -> group o p st c s = (None, s).
Proof. destruct s as [|a s]; cbn; auto. intro H. now rewrite Ascii.eqb_sym, H. Qed.
Lemma group_len o p st c s : len (snd (group o p st c s)) <= len s.
Proof.
  destruct s as [|a s1]; auto. cbn [group]. destruct (Ascii.eqb a o); [|auto]. pose proof (proj1 (span_len p s1)) as L. destruct (span p s1) as [v s2]. cbn [snd] in L.
  assert (L3 : len (match s2 with b :: s2' => if st && Ascii.eqb b "*" then s2' else s2 | [] => s2 end) <= len s2) by (destruct s2 as [|b s2']; auto; destruct (st && Ascii.eqb b "*"); cbn; lia).
  destruct v; [auto|]. destruct (match s2 with b :: s2' => if st && Ascii.eqb b "*" then s2' else s2 | [] => s2 end) as [|b s4]; [auto|]. destruct (Ascii.eqb b c); cbn in *; lia.
Qed.
(** what may follow a category *)
Definition stops (l : chars) : Prop := match l with c :: _ => c = "/"%char \/ c = "\"%char \/ c = ")"%char | [] => True end.

(** ** marks *)
Definition vmark (c : cat) : chars := match c_var c with O => [] | v => ["{"; nth v VARIABLES " "; "}"]%char end.
Definition smark (c : cat) (n : nat) : chars := match c_rel c with Some _ => "<"%char :: decimal (S n) ++ [">"%char] | None => [] end.
Definition next (c : cat) (n : nat) : nat := match c_rel c with Some _ => S n | None => n end.
Lemma with_marks_eq c out n : c_var c < 12 -> with_marks true c out n =
  Ok ((if marked c then (if complex c then "("%char :: out ++ [")"%char] else out) ++ vmark c ++ smark c n else out), if marked c then next c n else n).
Proof.
  intro V. unfold with_marks, marked, vmark, smark, next. cbn [andb]. destruct (c_var c) as [|v] eqn:E; cbn [Nat.eqb negb orb].
  - destruct (c_rel c); cbn [bind app]; auto. 
  - assert (H : nth_error VARIABLES (S v) = Some (nth (S v) VARIABLES " "%char)) by (apply nth_error_nth'; cbn; lia). rewrite H. cbn [bind]. destruct (c_rel c); cbn [bind]; rewrite ?app_nil_r, <- ?app_assoc; reflexivity.
Qed.
Lemma digits_ok f : forall n, forallb is_digit (digits f n) = true.
Proof.
  induction f as [|f IH]; intro n; auto. cbn [digits]. rewrite forallb_app. apply andb_true_intro. split; [destruct (n <? 10); auto|]. cbn [forallb]. rewrite andb_true_r.
  assert (H : n mod 10 < 10) by (apply Nat.mod_upper_bound; lia). revert H. generalize (n mod 10). intros m H. do 10 (destruct m as [|m]; [reflexivity|]). lia.
Qed.
Lemma decimal_ne n : decimal n <> []. Proof. unfold decimal. cbn [digits]. intro H. apply app_eq_nil in H as (_ & H). discriminate. Qed.
Lemma stops_not l a : stops l -> existsb (Ascii.eqb a) ["["; "{"; "<"]%char = true -> head_not (Ascii.eqb a) l.
Proof.
  destruct l as [|c l]; cbn; auto. intros H E. rewrite orb_false_r in E. destruct (Ascii.eqb_spec a "["), (Ascii.eqb_spec a "{"), (Ascii.eqb_spec a "<"); subst; try discriminate; destruct H as [->|[->| ->]]; reflexivity.
Qed.
Lemma read_marks c n rest : c_var c < 12 -> stops rest -> exists v sl,
  match_var (vmark c ++ smark c n ++ rest) = (v, smark c n ++ rest) /\ to_var v = Ok (c_var c) /\
  match_slot (smark c n ++ rest) = (sl, rest) /\ forall w k, to_rel w k sl = slot_of w k (c_rel c).
Proof.
  intros V S. assert (SL : exists sl, match_slot (smark c n ++ rest) = (sl, rest) /\ forall w k, to_rel w k sl = slot_of w k (c_rel c)).
  { unfold smark. destruct (c_rel c).
    - exists (Some (decimal (1 + n))). split; [|reflexivity]. cbn [app]. rewrite <- app_assoc. apply group_some; auto; [apply decimal_ne|apply digits_ok].
    - exists None. split; [|reflexivity]. cbn [app]. apply group_none. now apply stops_not. }
  destruct SL as (sl & S1 & S2). unfold vmark. destruct (c_var c) as [|v] eqn:E.
  - exists None, sl. cbn [app]. split; [|split; [reflexivity|auto]]. apply group_none. unfold smark. destruct (c_rel c); cbn [app]; [reflexivity|now apply stops_not].
  - exists (Some [nth (Datatypes.S v) VARIABLES " "%char]), sl. split; [|split; [|auto]].
    + change (["{"; nth (Datatypes.S v) VARIABLES " "; "}"]%char ++ smark c n ++ rest) with ("{"%char :: [nth (Datatypes.S v) VARIABLES " "%char] ++ "}"%char :: smark c n ++ rest). apply group_some; auto; [discriminate|].
      do 11 (destruct v as [|v]; [reflexivity|]). lia.
    + do 11 (destruct v as [|v]; [reflexivity|]). lia.
Qed.
Lemma marks_head c n rest : stops rest -> head_not is_upper (vmark c ++ smark c n ++ rest) /\ head_not (Ascii.eqb "[") (vmark c ++ smark c n ++ rest).
Proof.
  intro H. unfold vmark, smark. destruct (c_var c); [|split; reflexivity]. destruct (c_rel c); [split; reflexivity|]. cbn [app]. split; [|now apply stops_not].
  destruct rest as [|a rest]; cbn in *; auto. destruct H as [->|[->| ->]]; reflexivity.
Qed.

(** ** atoms *)
Lemma str_atom a : str (unstr (atom_name a)) = atom_name a. Proof. now destruct a. Qed.
Lemma read_atom a rest : a <> ANone -> head_not is_upper rest -> match_atom (unstr (atom_name a) ++ rest) = Some (unstr (atom_name a), rest).
Proof.
  intros N H. assert (U : forall l, forallb is_upper l = true -> l <> [] -> match_atom (l ++ rest) = Some (l, rest)).
  { intros l F L. unfold match_atom. rewrite (span_all F H). destruct l; congruence. }
  destruct a; try congruence; try (apply U; [reflexivity|discriminate]); reflexivity.
Qed.
Lemma to_atom_name a : to_atom (unstr (atom_name a)) = Ok a. Proof. destruct a; reflexivity. Qed.
Lemma str_unstr s : str (unstr s) = s. Proof. apply string_of_list_ascii_of_string. Qed.
Lemma to_feature_ok f : In f FEATURES -> to_feature (unstr f) = Ok f.
Proof.
  intro H. unfold to_feature. rewrite str_unstr. replace (existsb (fun g => (g =? f)%string) FEATURES) with true; auto. symmetry. apply existsb_exists. exists f. split; auto. apply String.eqb_refl.
Qed.
Lemma feature_chars f : In f FEATURES -> forallb is_feat (unstr f) = true /\ unstr f <> [].
Proof. intro H. cbn in H. repeat (destruct H as [<-|H]; [split; [reflexivity|discriminate]|]). destruct H. Qed.
Definition ftext (f : string) : chars := if (f =? "")%string then [] else "["%char :: unstr f ++ ["]"%char].

(** ** the text of a category as a part of another *)
Definition text (c : cat) (n : nat) : chars := match str_ true c n with Ok o => fst o | Err _ => [] end.
Definition counter (c : cat) (n : nat) : nat := match str_ true c n with Ok o => snd o | Err _ => 0 end.
Definition part (c : cat) (n : nat) : chars := in_brackets c (text c n).
Definition inner (c : cat) (n : nat) : chars :=
  match c with
  | At a f _ _ => unstr (atom_name a) ++ ftext f
  | Sl d r x _ _ _ => part r n ++ d :: part x (counter r n)
  end.
Definition icount (c : cat) (n : nat) : nat := match c with At _ _ _ _ => n | Sl _ r x _ _ _ => counter x (counter r n) end.
Lemma str_eq c : vars_below 12 c -> forall n, str_ true c n = Ok (text c n, counter c n) /\
  text c n = (if marked c then (if complex c then "("%char :: inner c n ++ [")"%char] else inner c n) ++ vmark c ++ smark c (icount c n) else inner c n).
Proof.
  induction c as [a f v rel|d r IHr x IHx v rel tr]; intros (V & W) n.
  - unfold text, counter. cbn [str_]. rewrite (with_marks_eq _ _ V). cbn [fst snd inner icount]. split; reflexivity.
  - destruct W as (Wr & Wx). destruct (IHr Wr n) as (Er & _). destruct (IHx Wx (counter r n)) as (Ex & _). unfold text, counter. cbn [str_]. rewrite Er. cbn [bind fst snd]. rewrite Ex. cbn [bind fst snd].
    rewrite (with_marks_eq _ _ V). cbn [fst snd]. split; reflexivity.
Qed.

(** ** the right end *)
Lemma ends_snoc a c : ends_with_mark (a ++ [c]) = (Ascii.eqb c "}" || Ascii.eqb c ">"). Proof. unfold ends_with_mark. now rewrite rev_app_distr. Qed.
Lemma ends_app a b : b <> [] -> ends_with_mark (a ++ b) = ends_with_mark b.
Proof. intro H. destruct (exists_last H) as (b' & c & ->). now rewrite app_assoc, !ends_snoc. Qed.
Lemma atom_ends a f : ends_with_mark (unstr (atom_name a) ++ ftext f) = false.
Proof. unfold ftext. destruct (f =? "")%string; [rewrite app_nil_r; now destruct a|]. change ("["%char :: unstr f ++ ["]"%char]) with (("["%char :: unstr f) ++ ["]"%char]). now rewrite app_assoc, ends_snoc. Qed.
Lemma tail_ends c : vars_below 12 c -> proper FEATURES c -> tail_marked c = false -> forall n, ends_with_mark (text c n) = false.
Proof.
  induction c as [a f v rel|d r IHr x IHx v rel tr]; intros VW P T n; destruct (str_eq VW n) as (_ & ->); destruct VW as (V & W); cbn [tail_marked] in T; apply orb_false_elim in T as (T1 & T2); rewrite T1; cbn [inner].
  - apply atom_ends.
  - destruct W as (_ & Wx). destruct P as (D & _ & Px). specialize (IHx Wx Px T2 (counter r n)).
    assert (E : ends_with_mark (part x (counter r n)) = false).
    { unfold part, in_brackets. rewrite IHx. destruct (complex x); cbn [andb negb]; [|exact IHx]. change ("("%char :: text x (counter r n) ++ [")"%char]) with (("("%char :: text x (counter r n)) ++ [")"%char]). now rewrite ends_snoc. }
    destruct (part x (counter r n)) as [|b l] eqn:B; [rewrite ends_snoc; destruct D as [-> | ->]; reflexivity|].
    change (d :: b :: l) with ([d] ++ b :: l). rewrite ends_app by discriminate. rewrite ends_app by discriminate. exact E.
Qed.
Lemma marks_end c n l : marked c = true -> ends_with_mark (l ++ vmark c ++ smark c n) = true.
Proof.
  unfold marked, vmark, smark. destruct (c_rel c).
  - intros _. rewrite app_comm_cons, !app_assoc. now rewrite ends_snoc.
  - rewrite app_nil_r, orb_false_r. destruct (c_var c) as [|v]; [discriminate|]. intros _. change (["{"; nth (S v) VARIABLES " "; "}"]%char) with (["{"; nth (S v) VARIABLES " "]%char ++ ["}"%char]). now rewrite app_assoc, ends_snoc.
Qed.
(** a part always shows as: brackets if complex, then marks *)
Lemma part_eq c n : vars_below 12 c -> proper FEATURES c -> part_ok c ->
  part c n = (if complex c then "("%char :: inner c n ++ [")"%char] else inner c n) ++ vmark c ++ smark c (icount c n).
Proof.
  intros V P K. unfold part, in_brackets. destruct (str_eq V n) as (_ & E). destruct (marked c) eqn:M.
  - rewrite E. rewrite (marks_end _ _ M), andb_false_r. reflexivity.
  - assert (MM : vmark c ++ smark c (icount c n) = []).
    { unfold marked in M. apply orb_false_elim in M as (M1 & M2). unfold vmark, smark. destruct (c_var c); [|discriminate]. destruct (c_rel c); [discriminate|reflexivity]. }
    rewrite MM, app_nil_r. destruct c as [a f v rel|d r x v rel tr]; cbn [complex andb]; [exact E|]. destruct K as [K|K]; [congruence|]. rewrite (tail_ends V P K). cbn [negb]. now rewrite E.
Qed.
Lemma with_dep0_number w c : with_dep 0 (number w c) = number w c. Proof. now destruct c. Qed.
Lemma with_dep0_slots w n c : with_dep 0 (all_slots w n c) = all_slots w n c. Proof. now destruct c. Qed.

(** ** reading a part *)
Definition read_as (whole : string) (inr : bool) (slots : nat) (c : cat) : cat := if inr then number whole c else all_slots whole slots c.
Definition slots_after (inr : bool) (slots : nat) (c : cat) : nat := if inr then arity c else slots.
Definition reads (c : cat) (l : chars) : Prop := forall fuel whole tr slots inr rest, len l < fuel -> stops rest -> (inr = true -> slots = 0) ->
  parse_ fuel whole tr slots inr (l ++ rest) = Ok (with_dep tr (read_as whole inr slots c), rest, slots_after inr slots c).
Lemma read_complex d r x v rel tr0 lr lx n : d = "/"%char \/ d = "\"%char -> reads r lr -> reads x lx -> v < 12 -> let c := Sl d r x v rel tr0 in
  reads c ("("%char :: (lr ++ d :: lx) ++ ")"%char :: vmark c ++ smark c n).
Proof.
  intros D Hr Hx V c fuel whole tr slots inr rest L S I. destruct fuel as [|fuel]; [lia|]. cbn [app]. cbn [parse_]. change (Ascii.eqb "(" "(") with true. cbv iota.
  replace (((lr ++ d :: lx) ++ ")"%char :: vmark c ++ smark c n) ++ rest) with (lr ++ d :: lx ++ ")"%char :: vmark c ++ smark c n ++ rest) by (rewrite <- !app_assoc; cbn [app]; rewrite <- !app_assoc; reflexivity).
  cbn [len] in L. rewrite !app_length in L. cbn [len] in L. rewrite Hr; [|lia|cbn; tauto|exact I]. cbn [bind].
  rewrite Hx; [|rewrite app_length in L; cbn in L; lia|cbn; tauto|discriminate]. cbn [bind]. change (Ascii.eqb ")" ")") with true. cbv iota.
  destruct (@read_marks c n rest V S) as (v0 & sl & R1 & R2 & R3 & R4). rewrite R1, R3, R2. cbn [bind c_var]. rewrite R4. unfold slots_after, read_as, slash. destruct inr.
  - cbn [number arity]. unfold c at 1. cbn [with_dep number]. now rewrite with_dep0_number, with_dep0_slots.
  - unfold c at 1. cbn [with_dep all_slots]. now rewrite !with_dep0_slots.
Qed.
Lemma reads_part c : vars_below 12 c -> proper FEATURES c -> readable c -> part_ok c -> forall n, reads c (part c n).
Proof.
  induction c as [a f v rel|d r IHr x IHx v rel tr0]; intros V P R K n; rewrite (part_eq n V P K).
  - destruct V as (V & _). destruct P as (A & F). cbn [complex inner]. set (c := At a f v rel) in *. intros fuel whole tr slots inr rest L S I. destruct fuel as [|fuel]; [lia|].
    replace (((unstr (atom_name a) ++ ftext f) ++ vmark c ++ smark c (icount c n)) ++ rest) with (unstr (atom_name a) ++ ftext f ++ vmark c ++ smark c (icount c n) ++ rest) by now rewrite <- !app_assoc.
    set (k := icount c n) in *. destruct (@marks_head c k rest S) as (H1 & H2).
    assert (HU : head_not is_upper (ftext f ++ vmark c ++ smark c k ++ rest)) by (unfold ftext; destruct (f =? "")%string; [exact H1|reflexivity]).
    pose proof (read_atom A HU) as RA. assert (B : exists b l, unstr (atom_name a) = b :: l /\ Ascii.eqb b "(" = false) by (destruct a; try congruence; do 2 eexists; split; reflexivity).
    destruct B as (b & l & B1 & B2). cbn [parse_]. destruct (unstr (atom_name a) ++ ftext f ++ vmark c ++ smark c k ++ rest) as [|b' l'] eqn:T; [rewrite B1 in T; discriminate|].
    assert (b' = b) as -> by (rewrite B1 in T; cbn in T; congruence). rewrite B2, RA.
    assert (RF : exists ft, match_feature (ftext f ++ vmark c ++ smark c k ++ rest) = (ft, vmark c ++ smark c k ++ rest) /\ match ft with Some x => to_feature x | None => Ok ""%string end = Ok f).
    { unfold ftext. destruct F as [->|F].
      - exists None. split; [|reflexivity]. cbn [String.eqb app]. now apply group_none.
      - destruct (feature_chars F) as (F1 & F2). assert (E : (f =? "")%string = false) by (destruct f; [exfalso; now apply F2|reflexivity]). rewrite E. exists (Some (unstr f)). split; [|now apply to_feature_ok].
        change ("["%char :: unstr f ++ ["]"%char]) with (("["%char :: unstr f) ++ ["]"%char]). rewrite <- !app_assoc. cbn [app]. apply group_some; auto. }
    destruct RF as (ft & RF1 & RF2). rewrite RF1. destruct (@read_marks c k rest V S) as (v0 & sl & R1 & R2 & R3 & R4). rewrite R1, R3, RF2, R2. cbn [bind]. rewrite to_atom_name. cbn [bind]. rewrite R4.
    unfold slots_after, read_as. destruct inr; [rewrite (I eq_refl)|]; reflexivity.
  - destruct V as (V & Vr & Vx). destruct P as (D & Pr & Px). destruct R as (Kr & Kx & Rr & Rx). cbn [complex inner]. rewrite <- app_comm_cons, <- app_assoc. cbn [app].
    apply (@read_complex d r x v rel tr0); auto.
Qed.
Theorem read_back c tr : vars_below 12 c -> proper FEATURES c -> readable c -> exists s, c_repr c = Ok s /\
  parse_new s tr = Ok (with_dep tr (number (if complex c && negb (marked c) then "(" ++ s ++ ")" else s)%string c)).
Proof.
  intros V P R. destruct (str_eq V 0) as (E1 & E2). unfold c_repr. rewrite E1. cbn [rmap bind fst]. eexists. split; [reflexivity|].
  assert (W : forall l, part c 0 = l -> reads c l -> parse_whole (str l) tr = Ok (with_dep tr (number (str l) c), [], arity c)).
  { intros l El H. unfold parse_whole. rewrite unstr_str. pose proof (H (S (len l)) (str l) tr 0 true [] (Nat.lt_succ_diag_r _) I (fun _ => eq_refl)) as Q. rewrite app_nil_r in Q. exact Q. }
  destruct (complex c && negb (marked c)) eqn:B.
  - apply andb_prop in B as (B1 & B2). apply negb_true_iff in B2. rewrite B2 in E2. destruct c as [|d r x v rel tr0]; [discriminate|]. clear B1. set (c := Sl d r x v rel tr0) in *.
    destruct V as (V & Vr & Vx). destruct P as (D & Pr & Px). destruct R as (Kr & Kx & Rr & Rx). cbn [inner] in E2. unfold c in E2 at 2.
    unfold parse_new. unfold parse_whole at 1. rewrite unstr_str, E2. cbn [inner]. 
    rewrite (reads_part Vr Pr Rr Kr); [|rewrite app_length; lia|cbn; tauto|reflexivity]. cbn [bind fst snd].
    assert (MM : vmark c ++ smark c 0 = []).
    { unfold marked in B2. apply orb_false_elim in B2 as (M1 & M2). unfold vmark, smark. destruct (c_var c); [|discriminate]. destruct (c_rel c); [discriminate|reflexivity]. }
    unfold parse_whole. rewrite !unstr_app. rewrite unstr_str. change (unstr "(") with ["("%char]. change (unstr ")") with [")"%char]. cbn [app].
    pose proof (@read_complex d r x v rel tr0 (part r 0) (part x (counter r 0)) 0 D (@reads_part r Vr Pr Rr Kr 0) (@reads_part x Vx Px Rx Kx _) V) as Q. cbv zeta in Q. fold c in Q. rewrite MM in Q.
    match goal with |- context [parse_ ?f ?w ?t ?s ?i ?l] => replace (parse_ f w t s i l) with (parse_ f w t s i (l ++ [])) by now rewrite app_nil_r end.
    rewrite Q; [reflexivity| |exact I|reflexivity]. cbn [len]. lia.
  - assert (K : part_ok c) by (destruct c; [exact I|left; cbn in B; now apply negb_false_iff in B]). assert (PT : part c 0 = text c 0).
    { rewrite (part_eq 0 V P K), E2. destruct (marked c) eqn:M; auto. destruct c; [|discriminate]. cbn [complex]. unfold marked in M. apply orb_false_elim in M as (M1 & M2). unfold vmark, smark. destruct (c_var _); [|discriminate]. destruct (c_rel _); [discriminate|]. now rewrite app_nil_r. }
    unfold parse_new. rewrite (W (text c 0)); [reflexivity|exact PT|]. rewrite <- PT. now apply reads_part.
Qed.

(** ** without marks *)
Lemma bare_vars c : vars_below 12 (bare c). Proof. induction c; cbn; repeat split; auto; lia. Qed.
Lemma bare_marked c : marked (bare c) = false. Proof. now destruct c. Qed.
Lemma bare_tail c : tail_marked (bare c) = false. Proof. induction c as [|d r IHr x IHx]; cbn; auto. Qed.
Lemma bare_readable c : readable (bare c).
Proof. induction c as [|d r IHr x IHx]; cbn; auto. assert (P : forall c, part_ok (bare c)) by (intro c; pose proof (bare_tail c); destruct c; cbn in *; auto). auto. Qed.
Lemma bare_proper c : proper FEATURES c -> proper FEATURES (bare c). Proof. induction c as [|d r IHr x IHx]; cbn; intuition. Qed.
Lemma bare_number w c : number w (bare c) = bare c.
Proof. assert (A : forall n c, all_slots w n (bare c) = bare c) by (intros n c0; induction c0 as [|d r IHr x IHx]; cbn; [|rewrite IHr, IHx]; auto). induction c as [|d r IHr x IHx]; cbn; [|rewrite IHr, A]; auto. Qed.
Lemma bare_counter c : forall n, counter (bare c) n = n.
Proof.
  induction c as [a f v rel|d r IHr x IHx v rel tr]; intro n; [reflexivity|]. unfold counter. cbn [bare str_]. rewrite (proj1 (str_eq (bare_vars r) n)). cbn [bind fst snd]. rewrite IHr.
  rewrite (proj1 (str_eq (bare_vars x) n)). cbn [bind fst snd]. rewrite IHx. reflexivity.
Qed.
Lemma str_bare c : forall n, str_ false c n = Ok (text (bare c) n, n).
Proof.
  induction c as [a f v rel|d r IHr x IHx v rel tr]; intro n; [reflexivity|]. cbn [str_]. rewrite IHr. cbn [bind fst snd]. rewrite IHx. cbn [bind fst snd]. unfold with_marks. cbn [andb]. do 2 f_equal.
  rewrite (proj2 (str_eq (bare_vars (Sl d r x v rel tr)) n)), bare_marked. cbn [bare inner]. rewrite bare_counter. unfold part, in_brackets. replace (complex (bare r)) with (complex r) by now destruct r. replace (complex (bare x)) with (complex x) by now destruct x. reflexivity.
Qed.
Theorem str_back c tr : proper FEATURES c -> exists s, c_str c = Ok s /\ parse_new s tr = Ok (with_dep tr (bare c)).
Proof.
  intro P. destruct (@read_back (bare c) tr (bare_vars c) (bare_proper P) (bare_readable c)) as (s & E & R). exists s. rewrite bare_number in R. split; [|exact R].
  unfold c_repr in E. unfold c_str. rewrite str_bare. rewrite (proj1 (str_eq (bare_vars c) 0)) in E. exact E.
Qed.
Lemma bare_hash ha hs c : c_hash ha hs (bare c) = c_hash ha hs c. Proof. induction c as [|d r IHr x IHx]; cbn; congruence. Qed.
Lemma bare_equals ha hs c tr : c_equals ha hs (with_dep tr (bare c)) c = true.
Proof.
  replace (c_equals ha hs (with_dep tr (bare c)) c) with (c_equals ha hs (bare c) c) by now destruct c.
  induction c as [a f v rel|d r IHr x IHx v rel t].
  - cbn. rewrite Z.eqb_refl. cbn. now rewrite String.eqb_refl, (Nat.eqb_refl _ : atomk_eqb a a = true).
  - cbn [bare c_equals]. change (c_hash ha hs (Sl d (bare r) (bare x) 0 None 0)) with (c_hash ha hs (bare (Sl d r x v rel t))). rewrite bare_hash, Z.eqb_refl. cbn [negb]. now rewrite Ascii.eqb_refl, IHr, IHx.
Qed.

(** ** whatever is read *)
Lemma bind_inv A B (e : res A) (f : A -> res B) b : (do x <- e; f x) = Ok b -> exists a, e = Ok a /\ f a = Ok b.
Proof. destruct e as [a|]; cbn; [eauto|discriminate]. Qed.
Definition sane (whole : string) (tr slots : nat) (inr : bool) (c : cat) (slots' : nat) : Prop :=
  c = with_dep tr (read_as whole inr slots c) /\ slots' = slots_after inr slots c.
Lemma index_lt c l : forall i, index_of c l = Some i -> i < len l.
Proof. induction l as [|a l IH]; intros i H; [discriminate|]. cbn in *. destruct (Ascii.eqb a c); [injection H as <-; lia|]. destruct (index_of c l); [|discriminate]. injection H as <-. specialize (IH n eq_refl). lia. Qed.
Lemma to_var_lt v i : to_var v = Ok i -> i < 12.
Proof.
  destruct v as [v|]; unfold to_var, parse_variable_id; [|intro H; injection H as <-; lia]. destruct v as [|a [|? ?]]; try discriminate. intro H. destruct (index_of a VARIABLES) eqn:E; [|discriminate H]. injection H as <-. now apply index_lt in E.
Qed.
Lemma to_feature_in s f : to_feature s = Ok f -> In f FEATURES.
Proof. unfold to_feature. destruct (existsb (fun g => (g =? str s)%string) FEATURES) eqn:E; [|discriminate]. intro H. injection H as <-. apply existsb_exists in E as (g & I & E). apply String.eqb_eq in E. now subst. Qed.
Lemma strip_len p : forall s r, strip p s = Some r -> len r + len p = len s.
Proof. induction p as [|a p IH]; intros [|c s] r H; cbn in *; try (injection H as <-; cbn; lia); try discriminate. destruct (Ascii.eqb a c); [|discriminate]. apply IH in H. lia. Qed.
Lemma match_atom_ok s a r : match_atom s = Some (a, r) -> a <> [] /\ len r < len s.
Proof.
  unfold match_atom. pose proof (span_len is_upper s) as (_ & L). destruct (span is_upper s) as [[|x v] w]; cbn [fst snd] in L.
  - destruct (strip (unstr "conj") s) as [r'|] eqn:E; [intro H; injection H as <- <-; apply strip_len in E; cbn in E; split; [discriminate|lia]|].
    destruct s as [|c s]; [discriminate|]. destruct (existsb (Ascii.eqb c) (unstr ",.;:")); [|discriminate]. intro H. injection H as <- <-. cbn. split; [discriminate|lia].
  - intro H. injection H as <- <-. split; [discriminate|]. apply L. discriminate.
Qed.
Lemma to_atom_known s a : s <> [] -> to_atom s = Ok a -> a <> ANone.
Proof.
  intros N H E. subst. unfold to_atom in H. destruct (find _ ATOMS) as [a|] eqn:F; [|discriminate]. injection H as ->. apply find_some in F as (_ & F). apply String.eqb_eq in F. cbn in F. apply (f_equal unstr) in F. rewrite unstr_str in F. now subst.
Qed.
Lemma parse_sane fuel : forall whole tr slots inr s c rest slots', (inr = true -> slots = 0) -> parse_ fuel whole tr slots inr s = Ok (c, rest, slots') ->
  sane whole tr slots inr c slots' /\ known c /\ vars_below 12 c /\ len rest < len s.
Proof.
  induction fuel as [|fuel IH]; intros whole tr slots inr s c rest slots' I H; [discriminate|]. cbn [parse_] in H. destruct s as [|a s1]; [discriminate|]. destruct (Ascii.eqb a "(").
  - apply bind_inv in H as ([[lc s2] slots1] & H1 & H). destruct s2 as [|d s3]; [discriminate|]. apply bind_inv in H as ([[rc s4] slots2] & H2 & H). destruct s4 as [|e s5]; [discriminate|].
    destruct (Ascii.eqb e ")"); [|discriminate]. pose proof (group_len "{" is_var true "}" s5) as L1. fold match_var in L1. destruct (match_var s5) as [v s6]. pose proof (group_len "<" is_digit false ">" s6) as L2. fold match_slot in L2. destruct (match_slot s6) as [sl s7]. cbn [snd] in *.
    apply bind_inv in H as (var & HV & H). injection H as <- <- <-. apply to_var_lt in HV.
    destruct (IH _ _ _ _ _ _ _ _ I H1) as ((A1 & A2) & A3 & A4 & A5). destruct (IH whole 0 (if inr then S slots1 else slots1) false s3 rc (e :: s5) slots2 ltac:(discriminate) H2) as ((B1 & B2) & B3 & B4 & B5). cbn [len] in *.
    split; [|split; [split; auto|split; [split; [exact HV|split; auto]|lia]]]. cbn in B2. unfold slots_after in A2. unfold read_as in A1, B1. rewrite with_dep0_slots in B1. split.
    + unfold read_as, slash. destruct inr.
      * rewrite with_dep0_number in A1. cbn [number with_dep]. rewrite A2 in B1, B2. rewrite B2. f_equal; auto. destruct sl; reflexivity.
      * rewrite with_dep0_slots in A1. cbn [all_slots with_dep]. rewrite A2 in B1, B2. rewrite B2. f_equal; auto. destruct sl; reflexivity.
    + unfold slots_after. rewrite B2. destruct inr; cbn [arity slash]; congruence.
  - destruct (match_atom (a :: s1)) as [[at_ s2]|] eqn:M; [|discriminate]. apply match_atom_ok in M as (M1 & M2). pose proof (group_len "[" is_feat false "]" s2) as L0. fold match_feature in L0. destruct (match_feature s2) as [ft s3].
    pose proof (group_len "{" is_var true "}" s3) as L1. fold match_var in L1. destruct (match_var s3) as [v s4]. pose proof (group_len "<" is_digit false ">" s4) as L2. fold match_slot in L2. destruct (match_slot s4) as [sl s5]. cbn [snd] in *.
    apply bind_inv in H as (f & HF & H). apply bind_inv in H as (var & HV & H). apply bind_inv in H as (at' & HA & H). injection H as <- <- <-. apply to_var_lt in HV. apply (to_atom_known M1) in HA.
    split; [|split; [|split; [split; [exact HV|exact Logic.I]|lia]]].
    + split; [|unfold slots_after; destruct inr; [now rewrite I|reflexivity]]. unfold read_as. destruct inr; [rewrite I by auto|]; cbn; destruct sl; reflexivity.
    + split; [exact HA|]. destruct ft; [right; now apply to_feature_in in HF|left; congruence].
Qed.
Lemma to_var_err v e : to_var v = Err e -> parse_exn e.
Proof. unfold parse_exn. unfold to_var, parse_variable_id. destruct v as [[|a [|? ?]]|]; try (destruct (index_of a VARIABLES)); intro H; try discriminate; injection H as <-; auto. Qed.
Lemma parse_errors fuel : forall whole tr slots inr s e, (inr = true -> slots = 0) -> len s < fuel -> parse_ fuel whole tr slots inr s = Err e -> parse_exn e.
Proof.
  induction fuel as [|fuel IH]; intros whole tr slots inr s e I L H; [lia|]. cbn [parse_] in H. destruct s as [|a s1]; [injection H as <-; unfold parse_exn; auto|]. cbn in L. destruct (Ascii.eqb a "(").
  - destruct (parse_ fuel whole 0 slots inr s1) as [[[lc s2] slots1]|e1] eqn:P1; cbn [bind] in H; [|injection H as <-; eapply IH; [exact I| |exact P1]; lia].
    apply (parse_sane I) in P1 as (_ & _ & _ & L1). destruct s2 as [|d s3]; [injection H as <-; unfold parse_exn; auto|]. cbn in L1.
    match type of H with bind ?p _ = _ => destruct p as [[[rc s4] slots2]|e2] eqn:P2; cbn [bind] in H end; [|injection H as <-; eapply IH; [|  |exact P2]; [discriminate|lia]].
    destruct s4 as [|c s5]; [injection H as <-; unfold parse_exn; auto|]. destruct (Ascii.eqb c ")"); [|injection H as <-; unfold parse_exn; auto].
    destruct (match_var s5) as [v s6]. destruct (match_slot s6) as [sl s7]. destruct (to_var v) eqn:V; cbn in H; [discriminate|]. injection H as <-. eapply to_var_err; eauto.
  - destruct (match_atom (a :: s1)) as [[at_ s2]|]; [|injection H as <-; unfold parse_exn; auto]. destruct (match_feature s2) as [ft s3]. destruct (match_var s3) as [v s4]. destruct (match_slot s4) as [sl s5].
    assert (F : forall e', match ft with Some x => to_feature x | None => Ok ""%string end = Err e' -> parse_exn e').
    { intros e' E. destruct ft; [|discriminate]. unfold to_feature in E. destruct (existsb _ _); [discriminate|]. injection E as <-. unfold parse_exn. auto. }
    match type of H with bind ?p _ = _ => destruct p eqn:E1; cbn [bind] in H end; [|injection H as <-; auto].
    destruct (to_var v) eqn:V; cbn [bind] in H; [|injection H as <-; eapply to_var_err; eauto].
    unfold to_atom in H. destruct (find _ ATOMS); cbn in H; [discriminate|]. injection H as <-. unfold parse_exn. auto.
Qed.
Theorem parse_new_sane s tr c : parse_new s tr = Ok c -> known c /\ vars_below 12 c /\ c = with_dep tr (number s c) \/ known c /\ vars_below 12 c /\ c = with_dep tr (number ("(" ++ s ++ ")")%string c).
Proof.
  unfold parse_new, parse_whole. intro H. apply bind_inv in H as ([[c1 r1] n1] & H1 & H). cbn [fst snd] in H. destruct r1.
  - injection H as ->. apply parse_sane in H1 as ((A & _) & B & C & _); [|auto]. left. auto.
  - apply bind_inv in H as ([[c2 r2] n2] & H2 & H). cbn [fst snd] in H. destruct r2; [|discriminate]. injection H as ->. apply parse_sane in H2 as ((A & _) & B & C & _); [|auto]. right. auto.
Qed.
Theorem parse_new_errors s tr e : parse_new s tr = Err e -> parse_exn e.
Proof.
  unfold parse_new, parse_whole. intro H. destruct (parse_ _ s tr 0 true (unstr s)) as [[[c1 r1] n1]|e1] eqn:P1; cbn [bind fst snd] in H; [|injection H as <-; eapply parse_errors; [| |exact P1]; auto].
  destruct r1; [discriminate|]. match type of H with bind ?p _ = _ => destruct p as [[[c2 r2] n2]|e2] eqn:P2; cbn [bind fst snd] in H end; [|injection H as <-; eapply parse_errors; [| |exact P2]; auto].
  destruct r2; [discriminate|]. injection H as <-. unfold parse_exn. auto.
Qed.

(** ** the dictionary *)
Definition faithful (d : categories) : Prop := forall k c, lookup k d = Some c -> parse_new (fst k) (snd k) = Ok c.
Lemma parse_faithful d s dep : faithful d -> faithful (fst (parse d s dep)) /\ snd (parse d s dep) = parse_once s dep.
Proof.
  intro F. unfold parse, parse_once. destruct (parse_variable_id (unstr dep)) as [var|e]; cbn [bind]; [|auto]. destruct (lookup (s, var) d) as [c|] eqn:L; [split; [auto|symmetry; exact (F _ _ L)]|].
  destruct (parse_new s var) as [c|e] eqn:P; cbn [fst snd]; [|auto]. split; [|auto]. intros k c' H. cbn [lookup] in H. cbn [fst snd] in H.
  destruct ((fst k =? s)%string && (snd k =? var)) eqn:E; [|now apply F]. apply andb_prop in E as (E1 & E2). apply String.eqb_eq in E1. apply Nat.eqb_eq in E2. injection H as <-. now rewrite E1, E2.
Qed.
Theorem cache_unobservable l : parse_calls [] l = map (fun p => parse_once (fst p) (snd p)) l.
Proof.
  assert (H : forall d, faithful d -> parse_calls d l = map (fun p => parse_once (fst p) (snd p)) l); [|apply H; intros k c E; discriminate].
  induction l as [|[s dep] l IH]; intros d F; cbn; auto. destruct (parse_faithful s dep F) as (F1 & ->). f_equal. now apply IH.
Qed.
Lemma known_proper c : known c -> slashes c -> proper FEATURES c.
Proof. induction c as [a f v rel|d r IHr x IHx]; cbn; [auto|]. intros (K1 & K2) (D & S1 & S2). auto. Qed.
