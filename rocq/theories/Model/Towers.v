(** Problems wrapped around problems: what the constructors of leap_ec/real_rep/problems.py and leap_ec/problem.py keep of
    the problem they are given.  Fitness values are exact rationals; problems are deterministic. *)
From Verif Require Import Model.Base Model.RealProblems.

(** a scalar problem object, leap_ec/problem.py:78-86.  [o_evaluate is_array phenome]: is_array tells whether the phenome
    is a numpy array; [o_maximize]: the attribute, None if the object has none; [o_direction]: what its worse_than goes by;
    [o_bounds]: the attribute, if any *)
Record object := mk_object {
  o_evaluate : bool -> list Q -> result Q; o_maximize : option bool; o_direction : bool; o_bounds : option (Q * Q) }.

(** the wrapping classes with their arguments; [maximize]: None when not given.
    leap_ec/real_rep/problems.py:1267, 1347, 1468; leap_ec/problem.py:277, 335 *)
Inductive wrapper :=
| Translate (offset : list Q) (maximize : option bool)
| Scale (new_bounds : Q * Q) (maximize : option bool)
| Matrix (m : list (list Q)) (maximize : option bool)
| AddOffset (fitness_offset : Q) (maximize : option bool)
| Average (n : nat).

(** if maximize is None: maximize = problem.maximize; leap_ec/real_rep/problems.py:1268-1269, 1348-1349, 1469-1470,
    leap_ec/problem.py:278-279 *)
Definition inherit (maximize : option bool) (inner : object) : result bool :=
  match maximize with
  | Some m => Ok m
  | None => match o_maximize inner with Some m => Ok m | None => Err AttributeError end
  end.

(** leap_ec/problem.py:342-345: n evaluations and their mean *)
Fixpoint repeated (n : nat) (ev : result Q) : result (list Q) :=
  match n with
  | 0 => Ok []
  | S k => bind ev (fun f => bind (repeated k ev) (fun fs => Ok (f :: fs)))
  end.
(** leap_ec/problem.py:342-345, continued *)
Definition mean_value (ev : result Q) (n : nat) : result Q :=
  bind (repeated n ev) (fun fs => Ok (np_sum fs / inject_Z (Z.of_nat (length fs)))%Q).

(** the constructors and the evaluate methods: leap_ec/real_rep/problems.py:1267-1275, 1306-1329 (TranslatedProblem),
    1347-1368 (ScaledProblem), 1468-1477, 1557-1561 (MatrixTransformedProblem); leap_ec/problem.py:277-303
    (FitnessOffsetProblem), 335-345, 373-374 (AverageFitnessProblem, which is no ScalarProblem and calls no
    constructor of Problem).  What the inner problem gets from the first three is an array. *)
Definition wrap (w : wrapper) (inner : object) : result object :=
  match w with
  | Translate offset maximize =>
      bind (inherit maximize inner) (fun m =>
      Ok (mk_object (fun is_array x => translated_evaluate (o_evaluate inner true) offset is_array x) (Some m) m (o_bounds inner)))
  | Scale new_bounds maximize =>
      bind (inherit maximize inner) (fun m =>
      match o_bounds inner with
      | None => Err ValueError
      | Some old => Ok (mk_object (fun is_array x => scaled_evaluate (o_evaluate inner true) old new_bounds is_array x)
                          (Some m) m (Some new_bounds))
      end)
  | Matrix mat maximize =>
      bind (inherit maximize inner) (fun m =>
      bind (matrix_problem mat) (fun mat =>
      Ok (mk_object (fun _ x => matrix_evaluate (o_evaluate inner true) mat x) (Some m) m (o_bounds inner))))
  | AddOffset v maximize =>
      bind (inherit maximize inner) (fun m =>
      Ok (mk_object (fun is_array x => bind (o_evaluate inner is_array x) (fun f => Ok (f + v)%Q)) (Some m) m (o_bounds inner)))
  | Average n =>
      if 0 <? n
      then Ok (mk_object (fun is_array x => mean_value (o_evaluate inner is_array x) n) None (o_direction inner) None)
      else Err AssertionError
  end.

(** the constructor calls of a tower, innermost first; leap_ec/real_rep/problems.py:1122-1124 builds such towers *)
Fixpoint build (base : object) (ws : list wrapper) : result object :=
  match ws with
  | [] => Ok base
  | w :: outer => bind (wrap w base) (fun o => build o outer)
  end.
