(** C66, C77: the text printer for pregroup diagrams. *)
From Coq Require Import Ascii Permutation Sorted.
From Verif Require Import PyBase TyModel DiagModel DiagSpec ReaderModel PrintModel PrintSpec PrintFacts PrintTracks PrintDraw PrintHead.
Close Scope string_scope.

(** ** C66 *)
(** [diagram2str] raises ValueError on a diagram that is not a pregroup diagram *)
Theorem C66_not_pregroup : forall sp ua c d, is_pregroup d = false -> diagram2str sp ua c d = Err ValueError.
Proof. exact print_error. Qed.
Print Assumptions C66_not_pregroup.
(** On every well-typed pregroup diagram the printer succeeds.  The cups and swaps of the diagram are put in layers so that no two in a layer overlap, overlapping ones keep their order,
    each is as high as that allows (with compression) or alone in its layer (without); the wires a cup or swap connects are still there in its layer and nothing is between them;
    and the rows printed below the headers are the pictures of these layers. *)
Theorem C66_layers_and_rows : forall sp ua c d, wf d -> is_pregroup d = true -> names_ok d -> 1 <= sp -> exists ms js ls cols wl ul tl rows,
  diagram2str sp ua c d = Ok (wl :: ul :: tl :: rows) /\
  tracks (after_words d) (seq 0 (n_wires d)) ms /\ scheduled c ms js ls /\
  (forall m j, In (m, j) (tagged 0 ls) -> m_start m < m_end m /\ alive (n_wires d) ls j (m_start m) /\ alive (n_wires d) ls j (m_end m) /\ forall w, m_start m < w < m_end m -> ~ alive (n_wires d) ls j w) /\
  List.length cols = n_wires d /\ (forall a b, a < b -> b < n_wires d -> col_of cols a + 2 <= col_of cols b) /\
  headed sp ua (word_part (layers d)) cols wl ul tl /\ drawing (n_wires d) cols ls 0 ls rows.
Proof. intros sp ua c d W P N S. destruct (@print_ok sp ua c d W P N S) as (ms & js & ls & cols & wl & ul & tl & rows & A & B & C & D & E & F & G & H). exists ms, js, ls, cols, wl, ul, tl, rows. auto 10. Qed.
Print Assumptions C66_layers_and_rows.

(** a transitive sentence with a swap *)
Definition an : atom := ("n"%string, 0%Z).
Definition anr : atom := ("n"%string, 1%Z).
Definition anl : atom := ("n"%string, (-1)%Z).
Definition as_ : atom := ("s"%string, 0%Z).
Definition svo : diagram := Diag [] [as_]
  [([], Word "Alice" [an] 0, []); ([an], Word "loves" [anr; as_; anl] 0, []); ([an; anr; as_; anl], Word "Bob" [an] 0, []);
   ([an; anr; as_], Cup anl an false, []); ([], Cup an anr false, [as_])].
Definition swapped : diagram := Diag [] [as_; an]
  [([], Word "Alice" [an] 0, []); ([an], Word "sleeps" [as_] 0, []); ([an; as_], Word "a" [an; anr] 0, []); ([], Swap an as_, [an; anr]); ([as_; an], Cup an anr false, [])].
Example C66_svo_ok : wf svo /\ is_pregroup svo = true /\ names_ok svo.
Proof. unfold wf, names_ok, name_ok. cbn. repeat (split || constructor || discriminate); intros c; cbn; intuition (subst; discriminate). Qed.
Example C66_svo_printed : diagram2str 2 false true svo = Ok
  [ chs "Alice    loves    Bob"; repeat GLine 5 ++ repeat SP 2 ++ repeat GLine 9 ++ repeat SP 2 ++ repeat GLine 3; chs "  n    n.r" ++ [GDot] ++ chs "s" ++ [GDot] ++ chs "n.l   n";
    chs "  " ++ [GBL] ++ repeat GLine 5 ++ [GBR] ++ chs "  " ++ [GBar] ++ chs "  " ++ [GBL] ++ repeat GLine 4 ++ [GBR] ].
Proof. vm_compute. reflexivity. Qed.
Example C66_swap_printed : diagram2str 2 false true swapped = Ok
  [ chs "Alice  sleeps    a"; repeat GLine 5 ++ repeat SP 2 ++ repeat GLine 6 ++ repeat SP 2 ++ repeat GLine 5; chs "  n      s     n" ++ [GDot] ++ chs "n.r";
    chs "  " ++ GBL :: repeat GLine 2 ++ [GTR] ++ repeat GLine 3 ++ [GBR] ++ chs "     " ++ [GBL; GLine; GLine; GBR];
    chs "  " ++ GTL :: repeat GLine 2 ++ [GBL] ++ repeat GLine 3 ++ [GTR] ].
Proof. vm_compute. reflexivity. Qed.
Example C66_swapped_ok : wf swapped /\ is_pregroup swapped = true /\ names_ok swapped.
Proof. unfold wf, names_ok, name_ok. cbn. repeat (split || constructor || discriminate); intros c; cbn; intuition (subst; discriminate). Qed.
(** With [word_spacing=0] two wires can be in neighbouring columns; a swap between them is drawn three columns wide. *)
Definition tight : diagram := Diag [] [as_; an] [([], Word "a" [an] 0, []); ([an], Word "b" [as_] 0, []); ([], Swap an as_, [])].
Theorem C66_no_spacing_refuted : wf tight /\ is_pregroup tight = true /\ names_ok tight /\
  diagram2str 0 false true tight = Ok [chs "ab"; [GLine; GLine]; chs "ns"; [GBL; GTR; GBR]; [GTL; GBL; GTR]].
Proof. split; [|split; [|split]]; [| | |vm_compute; reflexivity]; unfold wf, names_ok, name_ok; cbn; repeat (split || constructor || discriminate); intros c; cbn; intuition (subst; discriminate). Qed.
Print Assumptions C66_no_spacing_refuted.

(** ** C77 *)
(** The header lines show each word centred above a line that is as wide as the word and its types, with [word_spacing] blanks between words, and below it its types; a wire starts under the middle of its type,
    unless the word is longer than its types by an odd number and of odd length, when it starts one column to the left of it. *)
Theorem C77_headers_partial : forall sp ua c d, wf d -> is_pregroup d = true -> names_ok d -> 1 <= sp -> exists cols wl ul tl rows,
  diagram2str sp ua c d = Ok (wl :: ul :: tl :: rows) /\ List.length cols = n_wires d /\ headed sp ua (word_part (layers d)) cols wl ul tl.
Proof. intros sp ua c d W P N S. destruct (@print_ok sp ua c d W P N S) as (ms & js & ls & cols & wl & ul & tl & rows & A & B & C & D & _). exists cols, wl, ul, tl, rows. auto. Qed.
Print Assumptions C77_headers_partial.
(** the exception is real: here the only wire is under a blank *)
Definition askew : diagram := Diag [] [("ab"%string, 0%Z)] [([], Word "cat" [("ab"%string, 0%Z)] 0, [])].
Theorem C77_headers_refuted : wf askew /\ is_pregroup askew = true /\ names_ok askew /\ diagram2str 2 false true askew = Ok [chs "cat"; repeat GLine 3; chs " ab"; [GBar]].
Proof. split; [|split; [|split]]; [| | |vm_compute; reflexivity]; unfold wf, names_ok, name_ok; cbn; repeat (split || constructor || discriminate); intros c; cbn; intuition (subst; discriminate). Qed.
Print Assumptions C77_headers_refuted.
(** it never happens with types of odd length, as are all those made of [n], [s], [p] and their adjoints *)
Theorem C77_odd_types : forall ua (w : string * ty), snd w <> [] -> Forall (fun a => Nat.odd (List.length (show a)) = true) (snd w) -> shifted ua w = false.
Proof. exact odd_not_shifted. Qed.
Print Assumptions C77_odd_types.
Example C77_svo : shifted false ("loves"%string, [anr; as_; anl]) = false /\ Forall (fun a => Nat.odd (List.length (show a)) = true) [anr; as_; anl].
Proof. split; [reflexivity|]. repeat constructor. Qed.
