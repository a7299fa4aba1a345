(** Model of the JSON encoders and decoders of [lambeq/backend/grammar.py].

    A JSON object is a Python dict; the text encoding ([json.dumps]/[json.loads]) is not
    modelled.  The decoders mutate the dict they are given (pop/replace); here they read it.
    Values of the wrong JSON kind (e.g. a number where a name is expected), which the encoders
    never produce, raise [OtherError].  The recursion of the decoders is bounded by the size of
    the JSON value ([jsize]), which [JsonFacts] shows is enough. *)
From Verif Require Import PyBase TyModel DiagModel.
Set Implicit Arguments.
Local Open Scope string_scope.

Inductive json :=
| JNull
| JBool (b : bool)
| JNum (z : Z)
| JStr (s : string)
| JList (l : list json)
| JObj (l : list (string * json)).

Fixpoint jsize (j : json) : nat :=
  match j with
  | JList l => S (list_sum (map jsize l))
  | JObj l => S (list_sum (map (fun x => jsize (snd x)) l))
  | _ => 1
  end.

(** [d[k]] *)
Fixpoint jget (k : string) (d : list (string * json)) : res json :=
  match d with
  | [] => Err KeyError
  | (k', v) :: d' => if String.eqb k k' then Ok v else jget k d'
  end.
Definition jmem (k : string) (d : list (string * json)) : bool := existsb (fun x => String.eqb k (fst x)) d.
(** [d.pop(k)] *)
Definition jdel (k : string) (d : list (string * json)) : list (string * json) :=
  filter (fun x => negb (String.eqb k (fst x))) d.

Definition as_str (j : json) : res string := match j with JStr s => Ok s | _ => Err OtherError end.
Definition as_opt_str (j : json) : res (option string) :=
  match j with JStr s => Ok (Some s) | JNull => Ok None | _ => Err OtherError end.
Definition as_num (j : json) : res Z := match j with JNum z => Ok z | _ => Err OtherError end.
Definition as_nat (j : json) : res nat := match j with JNum z => Ok (Z.to_nat z) | _ => Err OtherError end.
Definition as_bool (j : json) : res bool := match j with JBool b => Ok b | _ => Err OtherError end.
Definition as_list (j : json) : res (list json) := match j with JList l => Ok l | _ => Err OtherError end.
Definition as_obj (j : json) : res (list (string * json)) := match j with JObj d => Ok d | _ => Err OtherError end.
Definition get_def {A} (dec : json -> res A) (k : string) (dflt : A) (d : list (string * json)) : res A :=
  if jmem k d then do v <- jget k d; dec v else Ok dflt.

(** the two pops at the start of every [from_json] *)
Definition open_obj (j : json) : res (list (string * json)) :=
  do d <- as_obj j;
  let d := jdel "category" d in
  do _ <- jget "entity" d;
  Ok (jdel "entity" d).

(** [cls( **data_dict )]: TypeError for an unexpected or missing keyword *)
Definition kwargs (required optional : list string) (d : list (string * json)) : res unit :=
  if forallb (fun x => existsb (String.eqb (fst x)) (required ++ optional)) d
     && forallb (fun k => jmem k d) required
  then Ok tt else Err TypeError.

(** ** Types *)

(** grammar.py 376-398 [Ty.to_json] *)
Definition meta (top : bool) : list (string * json) :=
  if top then [("category", JStr "grammar")] else [].
Fixpoint rty_to_json (top : bool) (t : rty) : json :=
  match t with
  | RTy n objs z =>
      JObj ([("entity", JStr "Ty");
             ("name", match n with Some s => JStr s | None => JNull end);
             ("objects", JList (map (rty_to_json false) objs));
             ("z", JNum z)] ++ meta top)
  end.

(** grammar.py 358-374 [Ty.from_json] *)
Fixpoint rty_from (fuel : nat) (j : json) : res rty :=
  match fuel with
  | O => Err OtherError
  | S f =>
      do d <- open_obj j;
      do os <- jget "objects" d;
      do l <- as_list os;
      do objs <- mapM (rty_from f) l;
      do _ <- kwargs [] ["name"; "objects"; "z"] d;
      do n <- get_def as_opt_str "name" None d;
      do z <- get_def as_num "z" 0%Z d;
      mk_ty n objs z
  end.
Definition rty_from_json (j : json) : res rty := rty_from (jsize j) j.

(** the types occurring in boxes and diagrams, as lists of factors *)
Definition ty_to_json (top : bool) (t : ty) : json := rty_to_json top (of_ty t).
Definition ty_from_json (j : json) : res ty := rmap factors (rty_from_json j).
(** [Ty.from_json(data_dict[k])] *)
Definition ty_field (k : string) (d : list (string * json)) : res ty :=
  do v <- jget k d; ty_from_json v.

(** ** Boxes, layers and diagrams *)

(** grammar.py 672-693 [Layer.to_json] and 1349-1370 [Diagram.to_json], given the box encoder *)
Definition layer_to_json_with (f : box -> json) (top : bool) (x : ty * box * ty) : json :=
  let '(l, b, r) := x in
  JObj ([("entity", JStr "Layer"); ("left", ty_to_json false l); ("right", ty_to_json false r);
         ("box", f b)] ++ meta top).
Definition diag_to_json_with (f : box -> json) (top : bool) (d c : ty) (ls : list (ty * box * ty)) : json :=
  JObj ([("entity", JStr "Diagram"); ("dom", ty_to_json false d); ("cod", ty_to_json false c);
         ("layers", JList (map (layer_to_json_with f false) ls))] ++ meta top).
Definition comp_to_json_with (f : box -> json) (c : comp box) : json :=
  match c with
  | CBox b => f b
  | CDiag d c ls => diag_to_json_with f false d c ls
  end.

(** grammar.py 550-572 Box, 1959-1970 Word, 1516-1526 Cap, 1646-1656 Cup, 1899-1908 Swap,
    1805-1816 Spider, 1702-1711 Daggered, 2211-2235 Frame, 2284-2293 DaggeredFrame *)
Fixpoint box_to_json (top : bool) (b : box) {struct b} : json :=
  let frame e n d c cs z t :=
    JObj ([("entity", JStr e); ("name", JStr n); ("dom", ty_to_json false d); ("cod", ty_to_json false c);
           ("z", JNum z); ("components", JList (map (comp_to_json_with (box_to_json false)) cs))] ++ meta t) in
  match b with
  | Box n d c z => JObj ([("entity", JStr "Box"); ("name", JStr n); ("dom", ty_to_json false d);
                          ("cod", ty_to_json false c); ("z", JNum z)] ++ meta top)
  | Word n c z => JObj ([("entity", JStr "Word"); ("name", JStr n); ("cod", ty_to_json false c); ("z", JNum z)] ++ meta top)
  | Cap l r rv => JObj ([("entity", JStr "Cap"); ("is_reversed", JBool rv);
                         ("left", ty_to_json false [l]); ("right", ty_to_json false [r])] ++ meta top)
  | Cup l r rv => JObj ([("entity", JStr "Cup"); ("is_reversed", JBool rv);
                         ("left", ty_to_json false [l]); ("right", ty_to_json false [r])] ++ meta top)
  | Swap l r => JObj ([("entity", JStr "Swap"); ("left", ty_to_json false [l]); ("right", ty_to_json false [r])] ++ meta top)
  | Spider t n m => JObj ([("entity", JStr "Spider"); ("type", ty_to_json false [t]);
                           ("n_legs_in", JNum (Z.of_nat n)); ("n_legs_out", JNum (Z.of_nat m))] ++ meta top)
  | Dagg b' => JObj ([("entity", JStr "Daggered"); ("box", box_to_json false b')] ++ meta top)
  | Frame n d c cs z => frame "Frame" n d c cs z top
  | DagFrame n d c cs z =>
      JObj ([("entity", JStr "DaggeredFrame"); ("frame", frame "Frame" n d c cs z false)] ++ meta top)
  end.
Definition layer_to_json : bool -> layer -> json := layer_to_json_with (box_to_json false).
Definition diag_to_json (top : bool) (d : diagram) : json :=
  diag_to_json_with (box_to_json false) top (dom d) (cod d) (layers d).

(** the classes whose [from_json] can be selected *)
Inductive bcls := KBox | KWord | KCap | KCup | KSwap | KSpider | KDaggered | KFrame | KDaggeredFrame.
(** grammar.py 653-664: the entity table of [Layer.from_json] *)
Definition layer_entity (e : string) : res bcls :=
  if e =? "Cap" then Ok KCap else if e =? "Cup" then Ok KCup else if e =? "Daggered" then Ok KDaggered
  else if e =? "Spider" then Ok KSpider else if e =? "Swap" then Ok KSwap else if e =? "Word" then Ok KWord
  else if e =? "Frame" then Ok KFrame else if e =? "DaggeredFrame" then Ok KDaggeredFrame
  else if e =? "Box" then Ok KBox else Err KeyError.
(** grammar.py 2199-2201: [special_boxes[entity.lower()]]; the registered names are cap, cup,
    spider, swap and frame (1405, 1532, 1717, 1822, 2108) *)
Definition special_entity (e : string) : res bcls :=
  if e =? "Cap" then Ok KCap else if e =? "Cup" then Ok KCup
  else if e =? "Spider" then Ok KSpider else if e =? "Swap" then Ok KSwap
  else if e =? "Frame" then Ok KFrame else Err KeyError.

Section Decoders.
  Variable rec : bcls -> json -> res box.
  (** grammar.py 641-670 [Layer.from_json] *)
  Definition layer_from (j : json) : res layer :=
    do d <- open_obj j;
    do l <- ty_field "left" d;
    do bj <- jget "box" d;
    do bd <- as_obj bj;
    do ej <- jget "entity" bd;
    do e <- as_str ej;
    do k <- layer_entity e;
    do b <- rec k bj;
    do r <- ty_field "right" d;
    do _ <- kwargs ["left"; "box"; "right"] [] d;
    Ok (l, b, r).
  (** grammar.py 1330-1347 [Diagram.from_json] *)
  Definition diag_from (j : json) : res diagram :=
    do d <- open_obj j;
    do s <- ty_field "dom" d;
    do t <- ty_field "cod" d;
    do lj <- jget "layers" d;
    do ll <- as_list lj;
    do ls <- mapM layer_from ll;
    do _ <- kwargs ["dom"; "cod"; "layers"] [] d;
    Ok (Diag s t ls).
  (** grammar.py 2193-2205: one component of a frame *)
  Definition comp_from (j : json) : res (comp box) :=
    do d <- as_obj j;
    do ej <- jget "entity" d;
    do e <- as_str ej;
    if e =? "Diagram" then do x <- diag_from j; Ok (CDiag (dom x) (cod x) (layers x))
    else do k <- special_entity e; do b <- rec k j; Ok (CBox b).
End Decoders.

(** [Cap(left, right, is_reversed)] etc. on atomic types; other types build diagrams, which the
    encoders never ask for *)
Definition atom_of (t : ty) : res atom := match t with [a] => Ok a | _ => Err OtherError end.

(** [cls.from_json] of each box class: grammar.py 534-548, 1952-1957, 1509-1514, 1638-1644,
    1891-1897, 1798-1803, 1695-1700, 2180-2209, 2274-2282 *)
Fixpoint box_from (fuel : nat) (k : bcls) (j : json) : res box :=
  match fuel with
  | O => Err OtherError
  | S f =>
      do d <- open_obj j;
      match k with
      | KBox =>
          do s <- ty_field "dom" d; do t <- ty_field "cod" d;
          do _ <- kwargs ["name"; "dom"; "cod"] ["z"] d;
          do nj <- jget "name" d; do n <- as_str nj; do z <- get_def as_num "z" 0%Z d;
          Ok (Box n s t z)
      | KWord =>
          do t <- ty_field "cod" d;
          do _ <- kwargs ["name"; "cod"] ["z"] d;
          do nj <- jget "name" d; do n <- as_str nj; do z <- get_def as_num "z" 0%Z d;
          Ok (Word n t z)
      | KCap =>
          do s <- ty_field "left" d; do t <- ty_field "right" d;
          do _ <- kwargs ["left"; "right"] ["is_reversed"] d;
          do rv <- get_def as_bool "is_reversed" false d;
          do l <- atom_of s; do r <- atom_of t; mk_cap l r rv
      | KCup =>
          do s <- ty_field "left" d; do t <- ty_field "right" d;
          do _ <- kwargs ["left"; "right"] ["is_reversed"] d;
          do rv <- get_def as_bool "is_reversed" false d;
          do l <- atom_of s; do r <- atom_of t; mk_cup l r rv
      | KSwap =>
          do s <- ty_field "left" d; do t <- ty_field "right" d;
          do _ <- kwargs ["left"; "right"] [] d;
          do l <- atom_of s; do r <- atom_of t; Ok (Swap l r)
      | KSpider =>
          do s <- ty_field "type" d;
          do _ <- kwargs ["type"; "n_legs_in"; "n_legs_out"] [] d;
          do nj <- jget "n_legs_in" d; do n <- as_nat nj;
          do mj <- jget "n_legs_out" d; do m <- as_nat mj;
          do a <- atom_of s; Ok (Spider a n m)
      | KDaggered =>
          do bj <- jget "box" d; do b <- box_from f KBox bj; Ok (b_dagger b)
      | KFrame =>
          do s <- ty_field "dom" d; do t <- ty_field "cod" d;
          do cj <- jget "components" d; do cl <- as_list cj;
          do cs <- mapM (comp_from (box_from f)) cl;
          do _ <- kwargs ["name"; "dom"; "cod"] ["components"; "z"] d;
          do nj <- jget "name" d; do n <- as_str nj; do z <- get_def as_num "z" 0%Z d;
          Ok (Frame n s t cs z)
      | KDaggeredFrame =>
          do fj <- jget "frame" d; do b <- box_from f KFrame fj; Ok (b_dagger b)
      end
  end.

(** [Box.from_json], [Word.from_json], ... *)
Definition box_from_json (k : bcls) (j : json) : res box := box_from (jsize j) k j.
(** [Layer.from_json], [Diagram.from_json] *)
Definition layer_from_json (j : json) : res layer := layer_from (box_from (jsize j)) j.
Definition diag_from_json (j : json) : res diagram := diag_from (box_from (jsize j)) j.

(** the class a box belongs to *)
Definition class_of (b : box) : bcls :=
  match b with
  | Box _ _ _ _ => KBox | Word _ _ _ => KWord | Cap _ _ _ => KCap | Cup _ _ _ => KCup
  | Swap _ _ => KSwap | Spider _ _ _ => KSpider | Dagg _ => KDaggered
  | Frame _ _ _ _ _ => KFrame | DagFrame _ _ _ _ _ => KDaggeredFrame
  end.

(** grammar.py 87-120 [Category.from_json]: the class is looked up from the entity name *)
Inductive jentity := JTy (t : rty) | JBoxE (b : box) | JLayer (x : layer) | JDiag (d : diagram).
Definition category_from_json (j : json) : res jentity :=
  do d <- as_obj j;
  do ej <- jget "entity" d;
  do e <- as_str ej;
  if e =? "Ty" then rmap JTy (rty_from_json j)
  else if e =? "Layer" then rmap JLayer (layer_from_json j)
  else if e =? "Diagram" then rmap JDiag (diag_from_json j)
  else do k <- layer_entity e; rmap JBoxE (box_from_json k j).
