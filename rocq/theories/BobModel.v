(** Model of Bobcat's categories ([lambeq/bobcat/lexicon.py] 28-281), unification and trees ([tree.py] 99-200, 223-431) and rules ([rules.py] 32-485).
    Simplifications: features are strings ("" is NONE); a [dict] with integer keys is a function to [option]; dependencies are left out (they never influence categories);
    the iteration order of the set [cat.vars] is a parameter; the grammar tables are data; [None] results are [Ok None], exceptions [Err]. *)
From Coq Require Import Ascii.
From Verif Require Import PyBase.
Open Scope string_scope. Set Implicit Arguments. Unset Strict Implicit.

(** lexicon.py 28-39 *)
Inductive atomk := ANone | AN | ANP | AS | APP | AConj | AComma | ASemi | AColon | APeriod | ALqu | ARqu | ALrb | ARrb.
Definition atomk_n (a : atomk) : nat :=
  match a with ANone => 0 | AN => 1 | ANP => 2 | AS => 3 | APP => 4 | AConj => 5 | AComma => 6 | ASemi => 7 | AColon => 8 | APeriod => 9 | ALqu => 10 | ARqu => 11 | ALrb => 12 | ARrb => 13 end.
Definition atomk_eqb (a b : atomk) : bool := Nat.eqb (atomk_n a) (atomk_n b).
(** 41-45 *)
Definition is_punct (a : atomk) : bool := (6 <=? atomk_n a)%nat.
(** 48-58 *)
Definition is_free (f : string) : bool := (f =? "")%string || (f =? "X")%string.
Notation relation := (option (string * nat)).
(** 74-95: atomic and complex categories; the last field of a complex one is [type_raising_dep_var] *)
Inductive cat :=
| At (a : atomk) (f : string) (v : nat) (rel : relation)
| Sl (d : ascii) (r x : cat) (v : nat) (rel : relation) (tr : nat).
Definition c_atom (c : cat) : atomk := match c with At a _ _ _ => a | Sl _ _ _ _ _ _ => ANone end.
Definition c_feat (c : cat) : string := match c with At _ f _ _ => f | Sl _ _ _ _ _ _ => "" end.
Definition c_var (c : cat) : nat := match c with At _ _ v _ => v | Sl _ _ _ v _ _ => v end.
Definition c_rel (c : cat) : relation := match c with At _ _ _ r => r | Sl _ _ _ _ r _ => r end.
Definition c_dir (c : cat) : ascii := match c with At _ _ _ _ => "000"%char | Sl d _ _ _ _ _ => d end.
Definition c_res (c : cat) : option cat := match c with At _ _ _ _ => None | Sl _ r _ _ _ _ => Some r end.
Definition c_arg (c : cat) : option cat := match c with At _ _ _ _ => None | Sl _ _ x _ _ _ => Some x end.
Definition bwd (c : cat) : bool := Ascii.eqb (c_dir c) "\".
Definition fwd (c : cat) : bool := Ascii.eqb (c_dir c) "/".
(** 103-110: [vars], each once *)
Definition addv (v : nat) (l : list nat) : list nat := if existsb (Nat.eqb v) l then l else v :: l.
Fixpoint vars (c : cat) : list nat :=
  match c with
  | At _ _ v _ => if (v =? 0)%nat then [] else [v]
  | Sl _ r x v _ _ => let l := fold_right addv (vars r) (vars x) in if (v =? 0)%nat then l else addv v l
  end.
(** 112-126 *)
Definition slash (c : cat) (d : ascii) (x : cat) (v : nat) (rel : relation) (tr : nat) : cat := Sl d c x v rel tr.
(** 128-155 *)
Fixpoint translate (m : nat -> option nat) (feature : string) (c : cat) : res cat :=
  match c with
  | At a f v rel =>
      match m v with
      | None => Err KeyError
      | Some v' => Ok (At a (if (f =? "X")%string && negb (feature =? "")%string then feature else f) v' rel)
      end
  | Sl d r x v rel _ =>
      match m v with
      | None => Err KeyError
      | Some v' => do r' <- translate m feature r; do x' <- translate m feature x; Ok (Sl d r' x' v' rel 0)
      end
  end.
(** ** Equality, hashing, matching: 192-246 *)
Section Hash.
  (** Python's [hash] of the tuples (atom, feature) and (result, argument, dir), the latter through the hashes of the components *)
  Variable hash_atom : atomk -> string -> Z.
  Variable hash_slash : Z -> Z -> ascii -> Z.
  (** 192-204 *)
  Fixpoint c_hash (c : cat) : Z :=
    match c with
    | At a f _ _ => hash_atom a (if (f =? "X")%string then "" else f)
    | Sl d r x _ _ _ => hash_slash (c_hash r) (c_hash x) d
    end.
  (** 206-221, [other] not being [None] *)
  Fixpoint c_equals (a b : cat) : bool :=
    if negb (Z.eqb (c_hash a) (c_hash b)) then false
    else match a with
         | At k f _ _ => atomk_eqb k (c_atom b) && ((f =? c_feat b)%string || (atomk_eqb k AS && is_free f && is_free (c_feat b)))
         | Sl d r x _ _ _ =>
             match b with
             | Sl d' r' x' _ _ _ => Ascii.eqb d d' && c_equals r r' && c_equals x x'
             | At _ _ _ _ => false
             end
         end.
End Hash.
(** 227-236 *)
Fixpoint c_matches (a b : cat) : bool :=
  match a with
  | At k f _ _ => atomk_eqb k (c_atom b) && ((f =? "")%string || (f =? c_feat b)%string)
  | Sl d r x _ _ _ =>
      match b with
      | Sl d' r' x' _ _ _ => Ascii.eqb d d' && c_matches r r' && c_matches x x'
      | At _ _ _ _ => false
      end
  end.
(** rules.py 73-81; a dict is the list of its items *)
Section MatchRule.
  Variable eqb : cat -> cat -> bool. Variable T : Type.
  Definition match_rule (rules : list (cat * list T)) (c : cat) : list T :=
    match find (fun p => eqb (fst p) c) rules with
    | Some p => snd p
    | None => match find (fun p => c_matches (fst p) c) rules with Some p => snd p | None => [] end
    end.
End MatchRule.

(** ** Trees: tree.py 223-262 *)
Inductive prule := RNone | RL | RU | RBA | RFA | RBC | RFC | RBX | RGBC | RGFC | RGBX | RLP | RRP | RBTR | RFTR | RCONJ | RADJ.
Definition prule_n (r : prule) : nat :=
  match r with RNone => 0 | RL => 1 | RU => 2 | RBA => 3 | RFA => 4 | RBC => 5 | RFC => 6 | RBX => 7 | RGBC => 8 | RGFC => 9 | RGBX => 10 | RLP => 11 | RRP => 12 | RBTR => 13 | RFTR => 14 | RCONJ => 15 | RADJ => 16 end.
(** a variable: its fillers and whether it is filled (73-97) *)
Notation variable := (list string * bool)%type.
Inductive ptree := PT (ru : prule) (c : cat) (l r : option ptree) (vm : nat -> option variable).
Definition p_rule (t : ptree) := let 'PT ru _ _ _ _ := t in ru.
Definition p_cat (t : ptree) := let 'PT _ c _ _ _ := t in c.
Definition p_vars (t : ptree) := let 'PT _ _ _ _ m := t in m.
Definition rule_in (t : ptree) (l : list prule) : bool := existsb (fun r => Nat.eqb (prule_n r) (prule_n (p_rule t))) l.
Definition coordinated_or_type_raised (t : ptree) : bool := rule_in t [RCONJ; RBTR; RFTR].
Definition coordinated (t : ptree) : bool := rule_in t [RCONJ].
Definition bwd_comp (t : ptree) : bool := rule_in t [RBC; RGBC].
Definition fwd_comp (t : ptree) : bool := rule_in t [RFC; RGFC].

(** ** Unification: tree.py 99-197 *)
Definition upd {A} (m : nat -> option A) (k : nat) (v : A) : nat -> option A := fun i => if (i =? k)%nat then Some v else m i.
Record ust := U { u_feat : string; u_num : nat; u_tl : nat -> option nat; u_tr : nat -> option nat; u_ol : nat -> option nat; u_or : nat -> option nat }.
Definition u_init : ust := U "" 1 (fun _ => None) (fun _ => None) (fun _ => None) (fun _ => None).
Section Unify.
  (** the order in which Python iterates over the set [cat.vars] *)
  Variable order : list nat -> list nat.
  Variables lt rt : ptree.
  (** 160-177: the variables of two unified subcategories; [None] is failure *)
  Definition unify_var (l r : nat) (u : ust) : option ust :=
    match u_tl u l, u_tr u r with
    | None, None =>
        if match p_vars lt l, p_vars rt r with Some (_, true), Some (_, true) => true | _, _ => false end then None
        else Some (U (u_feat u) (S (u_num u)) (upd (u_tl u) l (u_num u)) (upd (u_tr u) r (u_num u)) (upd (u_ol u) (u_num u) l) (upd (u_or u) (u_num u) r))
    | _, _ => Some u
    end.
  Definition set_feat (f : string) (u : ust) : ust := U f (u_num u) (u_tl u) (u_tr u) (u_ol u) (u_or u).
  (** 141-179 *)
  Fixpoint unify_rec (l r : cat) (u : ust) : option ust :=
    match l with
    | At a f v _ =>
        if negb (atomk_eqb a (c_atom r)) then None
        else if atomk_eqb a AS then
               if (f =? "X")%string then unify_var v (c_var r) (set_feat (c_feat r) u)
               else if (c_feat r =? "X")%string then unify_var v (c_var r) (set_feat f u)
               else if negb (f =? c_feat r)%string then None
               else unify_var v (c_var r) u
             else unify_var v (c_var r) u
    | Sl d lr lx v _ _ =>
        match r with
        | Sl d' rr rx v' _ _ =>
            if Ascii.eqb d d' then
              match unify_rec lr rr u with
              | Some u1 => match unify_rec lx rx u1 with Some u2 => unify_var v v' u2 | None => None end
              | None => None
              end
            else None
        | At _ _ _ _ => None
        end
    end.
  (** 181-188 *)
  Definition add_left (c : cat) (u : ust) : ust :=
    fold_left (fun u v => match u_tl u v with Some _ => u | None => U (u_feat u) (S (u_num u)) (upd (u_tl u) v (u_num u)) (u_tr u) (upd (u_ol u) (u_num u) v) (u_or u) end) (order (vars c)) u.
  Definition add_right (c : cat) (u : ust) : ust :=
    fold_left (fun u v => match u_tr u v with Some _ => u | None => U (u_feat u) (S (u_num u)) (u_tl u) (upd (u_tr u) v (u_num u)) (u_ol u) (upd (u_or u) (u_num u) v) end) (order (vars c)) u.
  (** 126-139: [res_left] says which side is the functor *)
  Definition unify (res_left : bool) (arg res : cat) : option ust :=
    match (if res_left then unify_rec res arg u_init else unify_rec arg res u_init) with
    | None => None
    | Some u => Some (if res_left then add_left (p_cat lt) (add_right (p_cat rt) u) else add_right (p_cat rt) (add_left (p_cat lt) u))
    end.
  (** 190-191 *)
  Definition outer_var (u : ust) : nat := match u_tl u (c_var (p_cat lt)) with Some v => v | None => 0 end.
  (** 193-197 *)
  Definition translate_arg (res_left : bool) (u : ust) (c : cat) : res cat := translate (if res_left then u_tr u else u_tl u) (u_feat u) c.
  Definition translate_res (res_left : bool) (u : ust) (c : cat) : res cat := translate (if res_left then u_tl u else u_tr u) (u_feat u) c.
  (** 388-404, 429-431 *)
  Definition binary (ru : prule) (c : cat) (u : ust) : ptree :=
    PT ru c (Some lt) (Some rt) (fun i =>
      if ((1 <=? i) && (i <? u_num u))%nat then
        let lv := match u_ol u i with Some v => p_vars lt v | None => None end in
        let rv := match u_or u i with Some v => p_vars rt v | None => None end in
        match lv, rv with
        | Some (f1, _), Some (f2, _) => Some ((f1 ++ f2)%list, true)
        | Some (f, _), None | None, Some (f, _) => Some (f, true)
        | None, None => None
        end
      else None).
  (** ** rules.py *)
  Variable eisner : bool.
  Definition need (o : option cat) : res cat := match o with Some c => Ok c | None => Err AttributeError end.
  (** 308-318 *)
  Definition application (forward : bool) : res (option ptree) :=
    let rs := if forward then p_cat lt else p_cat rt in let ar := if forward then p_cat rt else p_cat lt in
    do ra <- need (c_arg rs);
    match unify forward ar ra with
    | None => Ok None
    | Some u => do rr <- need (c_res rs); do c <- translate_res forward u rr; Ok (Some (binary (if forward then RFA else RBA) c u))
    end.
  Inductive comp := BC | BX | FC.
  Definition comp_fwd (k : comp) : bool := match k with FC => true | _ => false end.
  (** 355-383 *)
  Definition gc2 (k : comp) : res (option ptree) :=
    let forward := comp_fwd k in
    let rs := if forward then p_cat lt else p_cat rt in let ar := if forward then p_cat rt else p_cat lt in
    do a1 <- need (c_res ar); do a2 <- need (c_res a1); do ra <- need (c_arg rs);
    match unify forward a2 ra with
    | None => Ok None
    | Some u =>
        do rr <- need (c_res rs); do ir <- translate_res forward u rr;
        do a1x <- need (c_arg a1); do ia <- translate_arg forward u a1x;
        match (if forward then u_tr u else u_tl u) (c_var a1) with
        | None => Err KeyError
        | Some iv =>
            do ax <- need (c_arg ar); do na <- translate_arg forward u ax;
            Ok (Some (binary (if forward then RGFC else RGBX) (slash (slash ir (c_dir a1) ia iv (c_rel a1) 0) (c_dir ar) na (outer_var u) (c_rel ar) 0) u))
        end
    end.
  (** 385-421 *)
  Definition gc3 (k : comp) : res (option ptree) :=
    let forward := comp_fwd k in
    let rs := if forward then p_cat lt else p_cat rt in let ar := if forward then p_cat rt else p_cat lt in
    do a1 <- need (c_res ar); do a2 <- need (c_res a1); do a3 <- need (c_res a2); do ra <- need (c_arg rs);
    match unify forward a3 ra with
    | None => Ok None
    | Some u =>
        do rr <- need (c_res rs); do iir <- translate_res forward u rr;
        do a2x <- need (c_arg a2); do iia <- translate_arg forward u a2x;
        match (if forward then u_tr u else u_tl u) (c_var a2) with
        | None => Err KeyError
        | Some iiv =>
            do a1x <- need (c_arg a1); do ia <- translate_arg forward u a1x;
            match (if forward then u_tr u else u_tl u) (c_var a1) with
            | None => Err KeyError
            | Some iv =>
                do ax <- need (c_arg ar); do na <- translate_arg forward u ax;
                Ok (Some (binary (if forward then RGFC else RGBX)
                  (slash (slash (slash iir (c_dir a2) iia iiv (c_rel a2) 0) (c_dir a1) ia iv (c_rel a1) 0) (c_dir ar) na (outer_var u) (c_rel ar) 0) u))
            end
        end
    end.
  (** [Category.parse(r'S\NP')], [Category.parse(r'S[dcl]\S[dcl]')]: variables and relations do not matter for [matches] *)
  Definition pat_vp : cat := Sl "\" (At AS "" 0 None) (At ANP "" 0 None) 0 None 0.
  Definition pat_ss : cat := Sl "\" (At AS "dcl" 0 None) (At AS "dcl" 0 None) 0 None 0.
  Definition catch_attr {A} (r : res (option A)) : res (option A) := match r with Err AttributeError => Ok None | x => x end.
  (** 423-442, 464-485: [f] is the category of the functor, [a] of the other tree *)
  Definition generalised (k : comp) : res (option ptree) :=
    let f := if comp_fwd k then p_cat lt else p_cat rt in let a := if comp_fwd k then p_cat rt else p_cat lt in
    catch_attr (
      do fx <- need (c_arg f);
      if c_matches pat_vp fx then
        do a1 <- need (c_res a);
        if fwd a1 then
          do a2 <- need (c_res a1); do a3 <- need (c_res a2);
          if negb (c_feat a3 =? "X")%string then
            do r <- gc2 k;
            match r with
            | Some t => Ok (Some t)
            | None =>
                do a4 <- need (c_res a3);
                if fwd a2 && negb (c_feat a4 =? "X")%string then gc3 k else Ok None
            end
          else Ok None
        else Ok None
      else Ok None).
  (** 444-462 *)
  Definition generalised_bc : res (option ptree) :=
    do r1 <- need (c_res (p_cat lt));
    if negb (c_matches pat_ss r1) then Ok None
    else
      do r2 <- need (c_res r1);
      match p_vars lt (c_var r2) with
      | Some (_, true) =>
          do ra <- need (c_arg (p_cat rt));
          match unify false r2 ra with
          | None => Ok None
          | Some u => Ok (Some (binary RGBC (p_cat lt) u))
          end
      | _ => Ok None
      end.
  (** 320-353 *)
  Definition composition (k : comp) : res (option ptree) :=
    let forward := comp_fwd k in
    let rs := if forward then p_cat lt else p_cat rt in let ar := if forward then p_cat rt else p_cat lt in
    do ar1 <- need (c_res ar); do ra <- need (c_arg rs);
    match unify forward ar1 ra with
    | None => match k with BC => generalised_bc | _ => generalised k end
    | Some u =>
        do rr <- need (c_res rs); do rc <- translate_res forward u rr;
        do ax <- need (c_arg ar); do ac <- translate_arg forward u ax;
        Ok (Some (binary (match k with BC => RBC | FC => RFC | BX => RBX end) (slash rc (match k with BC => "\"%char | _ => "/"%char end) ac (outer_var u) None 0) u))
    end.
  (** 231-291 *)
  Definition backward_application : res (option ptree) :=
    if bwd (p_cat rt) && negb (coordinated_or_type_raised lt) && negb (eisner && bwd_comp rt) then application false else Ok None.
  Definition forward_application : res (option ptree) :=
    if fwd (p_cat lt) && negb (coordinated_or_type_raised rt) && negb (eisner && fwd_comp lt) then application true else Ok None.
  Definition backward_composition : res (option ptree) :=
    if bwd (p_cat lt) && bwd (p_cat rt) && negb (coordinated lt) && negb (coordinated rt) && negb (eisner && bwd_comp rt) then composition BC else Ok None.
  Definition forward_composition : res (option ptree) :=
    if fwd (p_cat lt) && fwd (p_cat rt) && negb (eisner && fwd_comp lt) then composition FC else Ok None.
  Definition backward_cross_composition : res (option ptree) :=
    if fwd (p_cat lt) && bwd (p_cat rt) && negb (coordinated rt) then
      do x <- need (c_arg (p_cat rt));
      if atomk_eqb (c_atom x) AN || atomk_eqb (c_atom x) ANP then Ok None else composition BX
    else Ok None.
  (** tree.py 300-318: the category and variables of a coordination *)
  Definition as_filled (b : bool) (m : nat -> option variable) : nat -> option variable := fun i => match m i with Some (f, _) => Some (f, b) | None => None end.
  Definition coordination_tree : ptree := PT RCONJ (slash (p_cat rt) "\" (p_cat rt) 0 None 0) (Some lt) (Some rt) (as_filled false (p_vars rt)).
  (** 293-298 *)
  Definition coordination : res (option ptree) :=
    Ok (if atomk_eqb (c_atom (p_cat lt)) AConj && negb (coordinated_or_type_raised rt) then Some coordination_tree else None).
  (** tree.py 350-374 *)
  Definition pass_through (ru : prule) (t : ptree) : ptree := PT ru (p_cat t) (Some lt) (Some rt) (p_vars t).
  (** 300-306 *)
  Definition adjectival_conj : res (option ptree) :=
    Ok (if atomk_eqb (c_atom (p_cat lt)) AConj && atomk_eqb (c_atom (p_cat rt)) AN then Some (pass_through RADJ rt) else None).
  (** type changing with punctuation: the categories [tl c]/[tr c] the grammar tables give (tree.py 321-347, rules.py 155-171) *)
  Variables punct_left punct_right : cat -> cat -> list cat.
  Definition type_change (ru : prule) (h : ptree) (c : cat) : ptree :=
    PT ru c (Some lt) (Some rt) (match p_vars h (c_var (p_cat h)) with Some v => if (c_var c =? 0)%nat then fun _ => None else upd (fun _ => None) (c_var c) v | None => fun _ => None end).
  (** 181-206 *)
  Definition left_punct : list ptree :=
    ((if coordinated_or_type_raised rt then [] else [pass_through RLP rt])
     ++ (if (atomk_eqb (c_atom (p_cat lt)) AComma || atomk_eqb (c_atom (p_cat lt)) ASemi) && negb (coordinated_or_type_raised rt) && negb (is_punct (c_atom (p_cat rt))) then [coordination_tree] else [])
     ++ map (type_change RLP rt) (punct_left (p_cat lt) (p_cat rt)))%list.
  (** 208-229 *)
  Definition right_punct : list ptree :=
    ((if coordinated_or_type_raised lt then [] else [pass_through RRP lt])
     ++ (if coordinated lt then [] else map (type_change RRP lt) (punct_right (p_cat rt) (p_cat lt))))%list.
  (** 32-60 *)
  Inductive kind := KAtom | KBwd | KFwd | KConj | KPunct.
  Definition kind_of (c : cat) : kind :=
    if is_punct (c_atom c) then KPunct else if atomk_eqb (c_atom c) AConj then KConj else if bwd c then KBwd else if fwd c then KFwd else KAtom.
  Definition or_else (a b : res (option ptree)) : res (option ptree) := do x <- a; match x with Some t => Ok (Some t) | None => b end.
  Definition opt_list (x : option ptree) : list ptree := match x with Some t => [t] | None => [] end.
  (** 113-153 *)
  Variable instances : cat -> cat -> bool.
  Definition combine : res (list ptree) :=
    if negb (instances (p_cat lt) (p_cat rt)) then Ok []
    else match kind_of (p_cat lt), kind_of (p_cat rt) with
         | KAtom, KBwd => rmap opt_list backward_application
         | KFwd, (KAtom | KConj) => rmap opt_list forward_application
         | KFwd, KFwd => rmap opt_list (or_else forward_application forward_composition)
         | KFwd, KBwd => rmap opt_list (or_else backward_application (or_else forward_application backward_cross_composition))
         | KBwd, KBwd => rmap opt_list (or_else backward_application backward_composition)
         | KConj, KAtom => do a <- coordination; do b <- adjectival_conj; Ok (opt_list a ++ opt_list b)%list
         | KConj, (KBwd | KFwd) => rmap opt_list (or_else backward_application coordination)
         | KPunct, (KAtom | KBwd | KFwd) => Ok left_punct
         | (KAtom | KBwd | KFwd), KPunct => Ok right_punct
         | _, _ => Ok []
         end.
End Unify.
