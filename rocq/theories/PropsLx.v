(** Theorems about reading and writing Bobcat categories (C98). Model: LxModel.v (and BobModel.v); specification: LxSpec.v. *)
From Coq Require Import Ascii.
From Verif Require Import PyBase BobModel LxModel LxSpec LxFacts.
Open Scope string_scope.

(** ** C98: category strings *)
(** [parse(str(c))] is [c] without variables and relations, and equals [c] in the sense of [==], whatever [hash] is *)
Theorem C98_str : forall c dep var, proper FEATURES c -> parse_variable_id (unstr dep) = Ok var -> exists s, c_str c = Ok s /\
  parse_once s dep = Ok (with_dep var (bare c)) /\ forall hash_atom hash_slash, c_equals hash_atom hash_slash (with_dep var (bare c)) c = true.
Proof.
  intros c dep var P D. destruct (str_back var P) as (s & E & R). exists s. split; [exact E|]. split; [unfold parse_once; rewrite D; exact R|]. intros. apply bare_equals.
Qed.
Print Assumptions C98_str.
Theorem C98_str_injective : forall c c', proper FEATURES c -> proper FEATURES c' -> c_str c = c_str c' -> bare c = bare c'.
Proof.
  intros c c' P P' E. destruct (str_back 0 P) as (s & E1 & R1). destruct (str_back 0 P') as (s' & E2 & R2). assert (s' = s) as -> by congruence. rewrite R1 in R2. injection R2 as R2. now destruct c, c'.
Qed.
Print Assumptions C98_str_injective.
(** [parse(repr(c))] is [c] with every variable and every relation, the relations numbered by argument, if every complex part without a mark of its
    own has none at its right end; relations carry the text that was read *)
Theorem C98_repr : forall c dep var, proper FEATURES c -> vars_below 12 c -> readable c -> parse_variable_id (unstr dep) = Ok var -> exists s, c_repr c = Ok s /\
  parse_once s dep = Ok (with_dep var (number (if complex c && negb (marked c) then "(" ++ s ++ ")" else s) c)).
Proof. intros c dep var P V R D. destruct (read_back var V P R) as (s & E & Q). exists s. split; [exact E|]. unfold parse_once. rewrite D. exact Q. Qed.
Print Assumptions C98_repr.
Definition marked_up : string := "((S[dcl]{_}\NP{Y}<1>){_}/(S[to]{Z}<2>\NP{Y}){Z}<2>){_}".
Example C98_instance : exists c, parse_once marked_up "+" = Ok c /\ proper FEATURES c /\ vars_below 12 c /\ readable c /\ arity c = 2 /\ marked c = true /\
  c_str c = Ok "(S[dcl]\NP)/(S[to]\NP)" /\ c_repr c = Ok "((S[dcl]{_}\NP{Y}<1>){_}/(S[to]{Z}<2>\NP{Y}){Z}<3>){_}".
Proof.
  eexists. split; [vm_compute; reflexivity|]. split; [cbn; intuition (auto; discriminate)|]. split; [cbn; lia|]. split; [cbn; intuition|]. repeat split; vm_compute; reflexivity.
Qed.
(** without the hypothesis it fails: two categories with one representation, which cannot be read *)
Theorem C98_repr_refuted : exists c c', c <> c' /\ proper FEATURES c /\ proper FEATURES c' /\ vars_below 12 c /\ vars_below 12 c' /\
  c_repr c = Ok "N/NP{Y}/S{Z}" /\ c_repr c' = Ok "N/NP{Y}/S{Z}" /\ parse_once "N/NP{Y}/S{Z}" "+" = Err AssertionError.
Proof.
  exists (Sl "/" (Sl "/" (At AN "" 0 None) (At ANP "" 2 None) 0 None 0) (At AS "" 3 None) 0 None 0), (Sl "/" (At AN "" 0 None) (Sl "/" (At ANP "" 2 None) (At AS "" 3 None) 0 None 0) 0 None 0).
  split; [discriminate|]. split; [cbn; intuition discriminate|]. split; [cbn; intuition discriminate|]. split; [cbn; lia|]. split; [cbn; lia|]. repeat split; vm_compute; reflexivity.
Qed.
Print Assumptions C98_repr_refuted.
(** whatever is read has named atoms, known features and variables, relations numbered by argument; it can be written and read again *)
Theorem C98_parsed : forall s dep c, parse_once s dep = Ok c -> known c /\ vars_below 12 c /\
  exists var w, parse_variable_id (unstr dep) = Ok var /\ (w = s \/ w = "(" ++ s ++ ")") /\ c = with_dep var (number w c).
Proof.
  intros s dep c H. unfold parse_once in H. apply bind_inv in H as (var & D & H). destruct (parse_new_sane H) as [(K & V & E)|(K & V & E)]; (split; [exact K|split; [exact V|]]); exists var; eauto.
Qed.
Print Assumptions C98_parsed.
Theorem C98_parsed_again : forall s dep c, parse_once s dep = Ok c -> slashes c -> exists s', c_str c = Ok s' /\ parse_once s' "+" = Ok (bare c).
Proof.
  intros s dep c H S. unfold parse_once in H. apply bind_inv in H as (var & _ & H). assert (K : known c) by (destruct (parse_new_sane H) as [(K & _)|(K & _)]; exact K).
  destruct (str_back 0 (known_proper K S)) as (s' & E & R). exists s'. split; [exact E|]. change (parse_once s' "+") with (parse_new s' 0). rewrite R. now destruct c.
Qed.
Print Assumptions C98_parsed_again.
(** the direction is not checked: any character is taken for one *)
Theorem C98_direction_refuted : exists c, parse_once "N!conj" "+" = Ok c /\ fwd c = false /\ bwd c = false /\ complex c = true /\ ~ slashes c.
Proof. eexists. split; [vm_compute; reflexivity|]. repeat split. cbn. intros ([H|H] & _); discriminate. Qed.
Print Assumptions C98_direction_refuted.
(** what cannot be read raises one of four exceptions *)
Theorem C98_errors : forall s dep e, parse_once s dep = Err e -> parse_exn e.
Proof.
  intros s dep e H. unfold parse_once in H. destruct (parse_variable_id (unstr dep)) as [var|e'] eqn:D; cbn [bind] in H; [now apply parse_new_errors in H|]. injection H as <-. exact (to_var_err (v := Some (unstr dep)) D).
Qed.
Print Assumptions C98_errors.
Example C98_errors_instance : parse_once "" "+" = Err IndexError /\ parse_once "S\NP/NP" "+" = Err AssertionError /\ parse_once "N{X}" "+" = Err ValueError /\ parse_once "S[foo]" "+" = Err KeyError.
Proof. repeat split; vm_compute; reflexivity. Qed.
(** the dictionary of categories read before is not observable *)
Theorem C98_dictionary : forall calls, parse_calls [] calls = map (fun p => parse_once (fst p) (snd p)) calls.
Proof. exact cache_unobservable. Qed.
Print Assumptions C98_dictionary.
