(** Model of the loss functions (lambeq/training/loss.py) and of the normalisation of predictions (lambeq/training/quantum_model.py 70-86).
    Simplifications: numbers are real numbers, not floats; [None] stands for a value that is not a finite number (nan, inf, -inf);
    arrays are given with their shape, as rows; the numpy and jax backends are taken to agree. *)
From Coq Require Import Reals Lra.
From Verif Require Import PyBase.
Open Scope R_scope.

(** two-dimensional arrays, and the operations of numpy on them *)
Record matrix := Mat { m_rows : nat; m_cols : nat; m_data : list (list R) }.
Definition sumR (l : list R) : R := fold_right Rplus 0 l.
(** [log]: not a finite number unless the argument is positive *)
Definition np_log (x : R) : option R := if Rlt_dec 0 x then Some (ln x) else None.
(** [x / y] *)
Definition np_div (x y : R) : option R := if Req_EM_T y 0 then None else Some (x / y).
Definition obind {X Y} (x : option X) (f : X -> option Y) : option Y := match x with Some a => f a | None => None end.
(** all values are finite *)
Fixpoint all_finite {X} (l : list (option X)) : option (list X) :=
  match l with
  | [] => Some []
  | x :: l' => obind x (fun a => obind (all_finite l') (fun r => Some (a :: r)))
  end.
(** loss.py 63-68 *)
Definition match_shapes (y1 y2 : matrix) : res unit :=
  if (m_rows y1 =? m_rows y2)%nat && (m_cols y1 =? m_cols y2)%nat then Ok tt else Err ValueError.
(** loss.py 70-83 *)
Definition smooth_and_normalise (y : matrix) (epsilon : R) : list (list (option R)) :=
  map (fun row => let y_smoothed := map (fun x => x + epsilon) row in
                  let l1_norm := sumR (map Rabs y_smoothed) in
                  map (fun x => np_div x l1_norm) y_smoothed) (m_data y).
(** loss.py 130-143: products of a number and something that is not finite are not finite *)
Definition calculate_ce (epsilon : R) (y_pred y_true : matrix) : res (option R) :=
  do _ <- match_shapes y_pred y_true;
  let y_pred_smoothed := smooth_and_normalise y_pred epsilon in
  let entropies := map (fun '(ps, ts) => map (fun '(p, t) => obind p (fun p => obind (np_log p) (fun l => Some (t * l)))) (combine ps ts)) (combine y_pred_smoothed (m_data y_true)) in
  Ok (obind (all_finite (List.concat entropies)) (fun l => np_div (- sumR l) (INR (m_rows y_true)))).
(** one-dimensional arrays, and [stack((1 - y, y)).T] *)
Definition dense (y : list R) : matrix := Mat (List.length y) 2 (map (fun x => [1 - x; x]) y).
(** loss.py 185-202 *)
Definition calculate_bce_sparse (epsilon : R) (y_pred y_true : list R) : res (option R) :=
  if (List.length y_pred =? List.length y_true)%nat then calculate_ce epsilon (dense y_pred) (dense y_true) else Err ValueError.
(** loss.py 216-224: the mean over all elements *)
Definition calculate_mse (y_pred y_true : matrix) : res (option R) :=
  do _ <- match_shapes y_pred y_true;
  let sq := map (fun '(a, b) => map (fun '(p, t) => (p - t) ^ 2) (combine a b)) (combine (m_data y_pred) (m_data y_true)) in
  Ok (np_div (sumR (List.concat sq)) (INR (m_rows y_pred * m_cols y_pred))).

(** quantum_model.py 70-86, for the elements of an array, whatever its shape; [scalar] if the shape is empty. [mag] is the absolute value of an element
    (a real or complex number). *)
Definition normalise_vector {X} (mag : X -> R) (scalar : bool) (predictions : list X) : list R :=
  let ret := map mag predictions in
  if scalar then ret
  else let l1_norm := Rmax (1 / 10 ^ 9) (sumR ret) in map (fun x => x / l1_norm) ret.
