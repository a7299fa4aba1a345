(** Specification vocabulary for the command line interface (C101). *)
From Coq Require Import ZArith Ascii.
From Verif Require Import PyBase CliModel.
Open Scope string_scope. Set Implicit Arguments. Unset Strict Implicit.

Definition textual (a : args) : Prop := output_format a = Some "text-ascii" \/ output_format a = Some "text-unicode".
(** the combinations that make sense *)
Record acceptable (a : args) : Prop := Acceptable {
  one_input : input_sentence a = "" \/ input_file a = None;
  has_output : textual a \/ output_file a <> None \/ output_dir a <> None;
  parser_or_reader : parser a = None \/ reader a = None;
  options_for_images : output_options a = [] \/ output_format a = Some "image";
  dir_for_images : output_dir a = None \/ output_format a = Some "image";
  ccg_only : mode a = Some "ccg" -> ansatz a = None /\ reader a = None /\ rewrite_rules a = None /\ output_format a <> Some "image" /\ (parser a = None \/ parser a = Some "bobcat");
  plain_diagrams : textual a \/ output_format a = Some "json" -> mode a = Some "string-diagram" \/ mode a = Some "pregroups" ->
    ansatz a = None /\ rewrite_rules a = None /\ reader a <> Some "spiders" /\ reader a <> Some "stairs" /\ reader a <> Some "tree" }.
(** values that the parser of the command line lets through *)
Definition known (a : args) : Prop :=
  (mode a = Some "string-diagram" \/ mode a = Some "pregroups" \/ mode a = Some "ccg") /\
  (output_format a = Some "json" \/ output_format a = Some "pickle" \/ textual a \/ output_format a = Some "image").

(** a file name and its extension: what comes after the last dot of its last component, unless there are only dots before it *)
Definition lacks (c : ascii) (s : string) : Prop := forall i, String.get i s <> Some c.
Definition only_dots (s : string) : Prop := forall i c, String.get i s = Some c -> c = "."%char.
Definition splits (file stem ext : string) : Prop := file = stem ++ ext /\ exists dir name, stem = dir ++ name /\ (dir = "" \/ exists d, dir = d ++ "/") /\ lacks "/" name /\
  ((ext = "" /\ exists dots word, name = dots ++ word /\ only_dots dots /\ lacks "." word) \/ (exists e, ext = "." ++ e /\ lacks "." e /\ lacks "/" e /\ ~ only_dots name)).

Section S.
Variable X : Type. Variable P : parts X.
(** from a parse to the object that is saved *)
Inductive stages (a : args) (x z : X) : Prop :=
| stages_intro y1 y2 :
    (if negb (is_some (reader a)) && among (mode a) ["ccg"; "pregroups"] then tidy P x = Ok y1 else y1 = x) ->
    (match rewrite_rules a with Some rs => apply_rules P rs y1 = Ok y2 | None => y2 = y1 end) ->
    (match ansatz a with Some s => exists n k, look "dim_n" (ansatz_options a) = Some n /\ look "dim_s" (ansatz_options a) = Some k /\ apply_ansatz P s n k (ansatz_options a) y2 = Ok z | None => z = y2 end) ->
    stages a x z.
(** what is drawn for a diagram: its normal form, or the diagram itself if there is no normal form or it cannot be drawn *)
Definition drawn_as (z y : X) : Prop := draw P y = Ok tt /\
  (normal P z = Ok y \/ y = z /\ ((exists e, normal P z = Err e /\ (e = ValueError \/ e = NotImplementedError)) \/ exists n e, normal P z = Ok n /\ draw P n = Err e /\ (e = ValueError \/ e = NotImplementedError))).
(** what is printed: a tree, or a pregroup diagram, which is the diagram itself if it is one *)
Definition printed_as (a : args) (z y : X) : Prop :=
  if among (mode a) ["ccg"] then y = z else is_pregroup P y = true /\ (y = z \/ is_pregroup P z = false /\ pregroup_nf P z = Ok y).
(** the objects [zs] are saved, in order *)
Inductive saved_as (a : args) (zs : list X) : list (effect X) -> Prop :=
| on_screen ys ls : textual a -> output_file a = None -> Forall2 (printed_as a) zs ys -> Forall2 (fun y l => show P (use_ascii a) y = Ok l) ys ls ->
    saved_as a zs [Print X (join_lines ls)]
| in_text f ys ls : textual a -> output_file a = Some f -> Forall2 (printed_as a) zs ys -> Forall2 (fun y l => show P (use_ascii a) y = Ok l) ys ls ->
    saved_as a zs [Write f (CText X (join_lines ls))]
| pickled f : output_format a = Some "pickle" -> output_file a = Some f -> saved_as a zs [Write f (CPickle zs)]
| in_json f : output_format a = Some "json" -> output_file a = Some f -> saved_as a zs [Write f (CJson zs)]
| one_image f g z y : output_format a = Some "image" -> output_dir a = None -> output_file a = Some f -> zs = [z] -> drawn_as z y ->
    (forall fmt, image_format a = Some fmt -> exists stem ext, splits f stem ext /\ g = stem ++ "." ++ fmt) -> saved_as a zs [Write g (CImage y)]
| no_image : output_format a = Some "image" -> output_dir a = None -> zs = [] -> saved_as a zs []
| images d names ys : output_format a = Some "image" -> output_dir a = Some d -> Forall2 drawn_as zs ys -> List.length names = List.length ys ->
    (forall i j s t, (i < j)%nat -> nth_error names i = Some s -> nth_error names j = Some t -> String.ltb s t = true) ->
    (forall s fmt, In s names -> image_format a = Some fmt -> exists number, s = d ++ "/diagram_" ++ number ++ "." ++ fmt) ->
    saved_as a zs (MkDir X d :: map (fun sy => Write (fst sy) (CImage (snd sy))) (combine names ys)).
(** nothing goes wrong in the other parts of the program *)
Definition total : Prop :=
  (forall a, is_ok (sentences P a) = true) /\ (forall a ss, is_ok (parse P a ss) = true) /\ (forall x, is_ok (tidy P x) = true) /\ (forall rs x, is_ok (apply_rules P rs x) = true) /\
  (forall s n k o x, is_ok (apply_ansatz P s n k o x) = true) /\ (forall x, is_ok (pregroup_nf P x) = true) /\ (forall b x, is_ok (show P b x) = true) /\ (forall x, is_ok (draw P x) = true).
End S.
