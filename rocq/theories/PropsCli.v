(** C101: the command line interface. *)
From Coq Require Import ZArith Ascii.
From Verif Require Import PyBase CliModel CliSpec CliFacts.
Open Scope string_scope.

(** the combinations of arguments that are let through are those that make sense; ValueError for the others *)
Theorem C101_validate : forall a, (validate_args a = Ok tt <-> acceptable a) /\ (validate_args a = Ok tt \/ validate_args a = Err ValueError).
Proof. intros a. split; [split; [apply valid_acceptable | apply acceptable_valid] | apply validate_raises]. Qed.
Print Assumptions C101_validate.
(** With arguments that are let through, a run that succeeds saves one object for each sentence that could be parsed, in the order of the sentences:
    on the screen, or in the file that is named, or one image for each in the directory, with names in the order of the sentences. *)
Theorem C101_output : forall X (P : parts X) a saved b es, effective a saved = Ok b -> known b -> run P b = Ok es ->
  exists ss r zs, sentences P b = Ok ss /\ parse P b ss = Ok r /\ Forall2 (stages P b) (List.concat (map (fun o => match o with Some x => [x] | None => [] end) r)) zs /\ saved_as P b zs es.
Proof.
  intros X P a saved b es E Hk. apply run_ok; [|exact Hk]. apply valid_acceptable. unfold effective in E. destruct (match load_args a with Some _ => _ | None => _ end) as [c|]; [|discriminate]. cbn [bind] in E. cbv zeta in E.
  destruct (validate_args (defaulted c)) as [[]|] eqn:V; [|discriminate]. cbn [bind] in E. injection E as <-. exact V.
Qed.
Print Assumptions C101_output.
(** What can still go wrong when nothing goes wrong in the other parts of the program: JSON for diagrams, an ansatz without the options dim_n and dim_s, several images in one file,
    a diagram that has no pregroup form to be printed, a normal form that does not exist for another reason than those expected. *)
Theorem C101_errors : forall X (P : parts X) a e, acceptable a -> known a -> total P -> run P a = Err e ->
  (e = NotImplementedError /\ output_format a = Some "json" /\ mode a <> Some "ccg") \/
  (e = KeyError /\ ansatz a <> None /\ (look "dim_n" (ansatz_options a) = None \/ look "dim_s" (ansatz_options a) = None)) \/
  (e = ValueError /\ output_format a = Some "image" /\ output_dir a = None) \/
  (e = ValueError /\ textual a /\ exists x y, pregroup_nf P x = Ok y /\ is_pregroup P y = false) \/
  (output_format a = Some "image" /\ exists x, normal P x = Err e).
Proof. exact run_errors. Qed.
Print Assumptions C101_errors.
(** The names of [n] images in a directory: all of the same length, and in the order of strings for any [n]; so no image replaces another. *)
Theorem C101_image_names : forall dir fmt n i j, (i < j)%nat -> (j < n)%nat ->
  String.ltb (image_name dir fmt n i) (image_name dir fmt n j) = true /\ String.length (image_name dir fmt n i) = String.length (image_name dir fmt n j).
Proof. intros dir fmt n i j H Hj. split; [apply image_name_lt; assumption | rewrite !image_name_length by lia; reflexivity]. Qed.
Print Assumptions C101_image_names.
(** the file of one image: whatever extension is asked for is replaced by the image format *)
Theorem C101_image_file : forall file fmt, exists stem ext, splits file stem ext /\ image_file file fmt = stem ++ "." ++ fmt.
Proof. intros file fmt. exists (fst (splitext file)), (snd (splitext file)). split; [apply splitext_splits | apply image_file_ext]. Qed.
Print Assumptions C101_image_file.
(** the list of image types, meant to keep the extension of the file that is asked for, is never consulted with success: [--output_file a.pdf] without [--image_format] writes a.png *)
Theorem C101_extension_refuted : In "pdf" image_types /\ image_file "a.pdf" "png" = "a.png".
Proof. split; [cbn; auto | reflexivity]. Qed.
Print Assumptions C101_extension_refuted.
(** options: the last value given for a key, or the default value; KeyError or ValueError for anything that is not one of the keys, [=] and a number *)
Theorem C101_options : forall int_of cs values o, NoDup (map fst cs) -> parse_options int_of cs values = Ok o -> exists given, mapM (parse_option int_of cs) values = Ok given /\
  forall k, look k o = match look k (rev given) with Some v => Some v | None => match look k cs with Some d => d | None => None end end.
Proof. exact parse_options_look. Qed.
Print Assumptions C101_options.
Definition int_of_digit (s : string) : option Z := match s with String c "" => let n := nat_of_ascii c in if (48 <=? n)%nat && (n <=? 57)%nat then Some (Z.of_nat (n - 48)) else None | _ => None end.
Example C101_options_given : parse_options int_of_digit ansatz_choices ["dim_s=1"; "n_layers=4"; "dim_s=3"] =
  Ok [("dim_s", 3%Z); ("n_layers", 4%Z); ("dim_n", 2%Z); ("n_single_qubit_params", 3%Z); ("bond_dim", 3%Z); ("max_order", 3%Z)].
Proof. reflexivity. Qed.
Example C101_options_wrong : parse_options int_of_digit ansatz_choices ["dim=1"] = Err KeyError /\ parse_options int_of_digit ansatz_choices ["dim_n=1=2"] = Err ValueError /\ NoDup (map fst ansatz_choices).
Proof. split; [reflexivity|]. split; [reflexivity|]. cbn. repeat (constructor; [cbn; intuition discriminate|]). constructor. Qed.
(** arguments that were stored are the ones in force when they are loaded, for the mode string-diagram *)
Theorem C101_reload_partial : forall a s c f, effective a s = Ok c -> mode c = Some "string-diagram" -> f <> "" ->
  effective (with_load f no_args) (fun g => if g =? f then Ok (to_store c) else Err OtherError) = Ok (with_load f (to_store c)).
Proof. exact reload. Qed.
Print Assumptions C101_reload_partial.

Definition words_parts : parts string := Parts (fun a => Ok [input_sentence a]) (fun _ ss => Ok (map Some ss)) (fun x => Ok x) (fun _ x => Ok x) (fun _ _ _ _ x => Ok x) (fun _ => true) (fun x => Ok x) (fun x => Ok x) (fun _ x => Ok x) (fun _ => Ok tt).
Definition plain (m f : option string) (file dir : option string) (an : option string) : args := Args "a" m None f None [] file dir None false false None None None an [] None None.
(** the mode that was stored is not: that of the command line has a default value, which is not falsy *)
Theorem C101_reload_refuted : exists c f, effective c (fun _ => Err OtherError) = Ok c /\ mode c = Some "ccg" /\
  exists d, effective (with_load f no_args) (fun _ => Ok (to_store c)) = Ok d /\ mode d = Some "string-diagram".
Proof.
  exists (defaulted (plain (Some "ccg") (Some "text-ascii") None None None)), "f". split; [reflexivity|]. split; [reflexivity|]. eexists. split; reflexivity.
Qed.
Print Assumptions C101_reload_refuted.
(** an ansatz without [--ansatz_options] raises KeyError, in spite of the default values that are advertised: they are filled in only when the option is present *)
Theorem C101_ansatz_options_refuted : exists a, effective a (fun _ => Err OtherError) = Ok a /\ known a /\ total words_parts /\ ansatz_options a = ansatz_options no_args /\ run words_parts a = Err KeyError.
Proof.
  exists (defaulted (plain (Some "string-diagram") (Some "pickle") (Some "f") None (Some "iqp"))). split; [reflexivity|]. split; [split; [left; reflexivity | right; left; reflexivity]|].
  split; [unfold total; repeat split; reflexivity|]. split; reflexivity.
Qed.
Print Assumptions C101_ansatz_options_refuted.
(** the other ways to fail do happen, with arguments that are let through *)
Example C101_fail : let fail m f file e := let a := defaulted (plain m f file None None) in effective a (fun _ => Err OtherError) = Ok a /\ run words_parts a = Err e in
  fail (Some "string-diagram") (Some "json") (Some "f") NotImplementedError.
Proof. split; reflexivity. Qed.
Definition two_parts : parts string := Parts (fun a => Ok ["a"; "b"; "c"]) (fun _ ss => Ok [Some "a"; None; Some "c"]) (fun x => Ok x) (fun _ x => Ok x) (fun _ _ _ _ x => Ok x) (fun _ => true) (fun x => Ok x)
  (fun x => if x =? "a" then Err ValueError else Ok "nf") (fun _ x => Ok x) (fun _ => Ok tt).
Example C101_images : let a := defaulted (plain None (Some "image") None (Some "out") None) in effective a (fun _ => Err OtherError) = Ok a /\ known a /\
  run two_parts a = Ok [MkDir string "out"; Write "out/diagram_1.png" (CImage "a"); Write "out/diagram_2.png" (CImage "nf")] /\
  run two_parts (defaulted (plain None (Some "image") (Some "f.pdf") None None)) = Err ValueError /\
  run words_parts (defaulted (plain None (Some "image") (Some "d.x/f.pdf") None None)) = Ok [Write "d.x/f.png" (CImage "a")].
Proof. split; [reflexivity|]. split; [split; [left; reflexivity | right; right; right; reflexivity]|]. repeat split; reflexivity. Qed.
Example C101_names : map (image_name "d" "png" 10) [0; 8; 9]%nat = ["d/diagram_01.png"; "d/diagram_09.png"; "d/diagram_10.png"].
Proof. reflexivity. Qed.
Example C101_reload_example : effective (plain None None None None None) (fun _ => Err OtherError) = Ok (defaulted (plain None None None None None)) /\ mode (defaulted (plain None None None None None)) = Some "string-diagram".
Proof. split; reflexivity. Qed.
Example C101_splits : map (fun f => image_file f "png") ["a.b.c"; "a.b/.c"; ".x"; "..x.y"; "d.e/f"; "a.b/..c.d"] = ["a.b.png"; "a.b/.c.png"; ".x.png"; "..x.png"; "d.e/f.png"; "a.b/..c.png"].
Proof. reflexivity. Qed.
