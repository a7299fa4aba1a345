(** C62: CCGBank derivations. *)
From Coq Require Import Ascii.
From Verif Require Import PyBase CCGModel CCGSpec ReaderModel BankModel BankSpec BankFacts.
Close Scope string_scope. Set Implicit Arguments. Unset Strict Implicit.
(** Every derivation in the format is read as the tree it denotes, and nothing else; suppressing exceptions makes no difference. *)
Theorem C62_accepts : forall s b x sup, derivation s b -> denotes b x -> sentence2tree sup s = Ok (Some x).
Proof. exact accepts. Qed.
Print Assumptions C62_accepts.
(** Whatever is accepted is a rendering of some derivation up to the end of the text (read loosely: any character may follow a closing bracket), and the tree returned
    is the one denoted; everything else raises CCGBankParseError. *)
Theorem C62_accepted_partial : forall s r, sentence2tree false s = Ok r -> exists b x, r = Some x /\ reads false b (str s) [] /\ denotes b x.
Proof. exact accepted. Qed.
Print Assumptions C62_accepted_partial.
Theorem C62_raises : forall s e, sentence2tree false s = Err e -> e = OtherError.
Proof. exact refused. Qed.
Print Assumptions C62_raises.
(** With suppression there is always an answer: the tree where there is one; [None] only if no derivation can be read even at the start of the text;
    and a tree only if it denotes a derivation at the start of the text. *)
Theorem C62_suppress_partial : forall s, exists r, sentence2tree true s = Ok r /\ (forall x, sentence2tree false s = Ok (Some x) -> r = Some x)
  /\ (r = None -> forall b x q, reads true b (str s) q -> ~ denotes b x) /\ (forall x, r = Some x -> exists b q, reads false b (str s) q /\ denotes b x).
Proof. exact suppressed. Qed.
Print Assumptions C62_suppress_partial.
(** Trailing text: rejected, but with suppression the tree of the first part is returned instead of [None]. *)
Theorem C62_trailing_refuted : exists s x, sentence2tree false s = Err OtherError /\ sentence2tree true s = Ok (Some x).
Proof. exists "(<L NP NN NN word NP>) and more"%string. eexists. split; vm_compute; reflexivity. Qed.
Print Assumptions C62_trailing_refuted.
(** Malformed text that is accepted: the character after a closing bracket is skipped unseen and the declared number of children is not checked. *)
Theorem C62_lax_refuted : exists s x, (forall b, ~ derivation s b) /\ sentence2tree false s = Ok (Some x).
Proof. exact lax. Qed.
Print Assumptions C62_lax_refuted.
(** A batch is read sentence by sentence; [tokenised] is refused for a non-empty batch. *)
Theorem C62_batch : forall tk sup l, sentences2trees tk sup l = match l with [] => Ok [] | _ => if tk then Err ValueError else mapM (sentence2tree sup) l end.
Proof. exact batch_ok. Qed.
Print Assumptions C62_batch.
(** A section whose files alternate identifier lines and derivations: with suppression every identifier comes out in order with its tree or, exactly where the
    derivation alone would raise, [None]; without, the entries before the first failing derivation and then an exception. *)
Theorem C62_section : forall fs, Forall (Forall entry_ok) fs ->
  section_gen true (map (flat_map lines_of) fs) = (map result (List.concat fs), None) /\
  section_gen false (map (flat_map lines_of) fs) = (before_failure (map result (List.concat fs)), if some_failure (map result (List.concat fs)) then Some OtherError else None).
Proof. intros fs F. exact (conj (section_true F) (section_false F)). Qed.
Print Assumptions C62_section.
Theorem C62_id_line : forall l i, match_id l = Some i <-> id_line l i.
Proof. intros l i. exact (conj (@match_id_inv l i) (@match_id_ok l i)). Qed.
Print Assumptions C62_id_line.
(** A file that ends after an identifier line makes the reader stop with an exception even when exceptions are suppressed (the loop asks for the next line);
    a line that is neither is skipped with suppression and stops the reader without. *)
Theorem C62_cut_file : forall es l i, Forall entry_ok es -> id_line l i -> section_gen true [flat_map lines_of es ++ [l]] = (map result es, Some OtherError).
Proof. intros es l i F Hl. cbn [section_gen]. now rewrite (file_cut F Hl). Qed.
Print Assumptions C62_cut_file.
Theorem C62_stray_line : forall es es' l, Forall entry_ok es -> Forall entry_ok es' -> (forall i, ~ id_line l i) ->
  file_gen true (flat_map lines_of es ++ l :: flat_map lines_of es') = (map result (es ++ es'), None) /\
  file_gen false (flat_map lines_of es ++ l :: flat_map lines_of es') = (before_failure (map result es), Some OtherError).
Proof. exact file_stray. Qed.
Print Assumptions C62_stray_line.
(** The character classes of the regular expressions, by character code: digits, lower case letters, white space (of Latin-1). *)
Theorem C62_classes : forall c, let n := nat_of_ascii c in
  (is_digit c = true <-> 48 <= n <= 57) /\ (is_lower c = true <-> 97 <= n <= 122) /\ (is_space c = true <-> 9 <= n <= 13 \/ 28 <= n <= 32 \/ n = 133 \/ n = 160).
Proof. exact classes. Qed.
Print Assumptions C62_classes.
(** Derivation lines are stripped of surrounding white space and of nothing else. *)
Theorem C62_strip : forall s, exists a b, str s = a ++ str (strip s) ++ b /\ opt_ws a /\ opt_ws b /\ no_lead (str (strip s)) /\ no_lead (rev (str (strip s))).
Proof. exact strip_spec. Qed.
Print Assumptions C62_strip.
Section Examples.
  Local Open Scope string_scope.
  Let line := "(<T S[dcl] 0 2> (<T NP 0 2> (<L NP[nb]/N DT DT The NP[nb]_1/N_1>) (<L N NN NN -LRB- N>) ) (<L S[dcl]\NP VBZ VBZ runs S[dcl]\NP_2>) )".
  Let tree := BNode (str "S[dcl]") false (str "2") [BNode (str "NP") false (str "2") [BLeaf (str "NP[nb]/N") (str "DT") (str "DT") (str "The") (str "NP[nb]_1/N_1"); BLeaf (str "N") (str "NN") (str "NN") (str "-LRB-") (str "N")];
    BLeaf (str "S[dcl]\NP") (str "VBZ") (str "VBZ") (str "runs") (str "S[dcl]\NP_2")].
  Let expected := CT None BA (CAtom "s") [CT None FA (CAtom "np") [CT (Some "The") LEXICAL (CSlash (CAtom "np") Over (CAtom "n")) []; CT (Some "(") LEXICAL (CAtom "n") []]; CT (Some "runs") LEXICAL (CSlash (CAtom "s") Under (CAtom "np")) []].
  Local Ltac ff := first [split; [discriminate|repeat constructor] | repeat constructor | (right; reflexivity) | (left; discriminate) | lia | discriminate | reflexivity | idtac].
  Example C62_example : derivation line tree /\ denotes tree expected /\ sentence2tree false line = Ok (Some expected).
  Proof.
    split.
    { pose (sp := [" "%char]).
      assert (W : is_ws sp) by (split; [discriminate|repeat constructor]). assert (W0 : opt_ws sp) by (repeat constructor).
      pose (lf := fun cat mp op w pa (r : chars) => (str "(<L" ++ sp ++ str cat ++ sp ++ str mp ++ sp ++ str op ++ sp ++ str w ++ sp ++ str pa ++ str ">)" ++ sp ++ r)%list).
      assert (RL : forall cat mp op w pa r, is_field (str cat) -> is_field (str mp) -> is_field (str op) -> is_field (str w) -> is_field (str pa) -> no_lead r ->
        reads true (BLeaf (str cat) (str mp) (str op) (str w) (str pa)) (lf cat mp op w pa r) r).
      { intros. apply (@R_leaf true sp sp sp sp sp sp); auto. intros _. left. discriminate. }
      pose (r1 := lf "S[dcl]\NP" "VBZ" "VBZ" "runs" "S[dcl]\NP_2" [")"%char]).
      pose (r2 := lf "NP[nb]/N" "DT" "DT" "The" "NP[nb]_1/N_1" (lf "N" "NN" "NN" "-LRB-" "N" (")"%char :: " "%char :: r1))).
      unfold derivation. apply (@R_node true sp sp sp sp (str "S[dcl]") false (str "2") _ (str "(<T" ++ sp ++ str "NP" ++ sp ++ "0"%char :: sp ++ str "2" ++ str ">" ++ sp ++ r2)%list [] []); auto; try (split; [discriminate|repeat constructor]); try reflexivity; [|intros _; constructor].
      apply (@R_cons true _ _ _ r1).
      - apply (@R_node true sp sp sp sp (str "NP") false (str "2") _ r2 sp r1); auto; try (split; [discriminate|repeat constructor]); try reflexivity; [|discriminate].
        apply (@R_cons true _ _ _ (lf "N" "NN" "NN" "-LRB-" "N" (")"%char :: " "%char :: r1))); [apply RL; try (split; [discriminate|repeat constructor]); reflexivity|].
        apply (@R_cons true _ _ _ (")"%char :: " "%char :: r1)); [apply RL; try (split; [discriminate|repeat constructor]); reflexivity|]. constructor.
      - apply (@R_cons true _ _ _ [")"%char]); [apply RL; try (split; [discriminate|repeat constructor]); reflexivity|]. constructor. }
    assert (D : sentence2tree false line = Ok (Some expected)) by (vm_compute; reflexivity). split; [|exact D].
    assert (C : forall s t, read_cat (str s) = Ok t -> category (str s) t) by (intros; now apply category_iff).
    unfold tree, expected. econstructor; [apply C; vm_compute; reflexivity| |vm_compute; reflexivity|right; reflexivity].
    assert (DL : forall cat mp op w pa t u, read_cat (str cat) = Ok t -> unescape w = u -> denotes (BLeaf (str cat) mp op (str w) pa) (CT (Some u) LEXICAL t [])).
    { intros. constructor; [now apply C|]. rewrite string_of_list_ascii_of_string. now apply unescape_iff. }
    constructor; [|constructor; [|constructor]].
    - econstructor; [apply C; vm_compute; reflexivity| |vm_compute; reflexivity|right; reflexivity]. constructor; [|constructor; [|constructor]]; apply DL; vm_compute; reflexivity.
    - apply DL; vm_compute; reflexivity.
  Qed.
  Example C62_section_example : Forall (Forall entry_ok) [[("ID=wsj_0001.1 PARSER=GOLD", "wsj_0001.1", line); ("ID=x", "x", "(oops")]]
    /\ section_gen true [["ID=wsj_0001.1 PARSER=GOLD"; line; "ID=x"; "(oops"]] = ([("wsj_0001.1", Some expected); ("x", None)], None)
    /\ section_gen false [["ID=wsj_0001.1 PARSER=GOLD"; line; "ID=x"; "(oops"]] = ([("wsj_0001.1", Some expected)], Some OtherError).
  Proof. split; [|split; vm_compute; reflexivity]. repeat constructor; apply match_id_inv; reflexivity. Qed.
End Examples.
