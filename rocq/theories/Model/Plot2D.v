(** leap_ec/real_rep/problems.py: plotting a problem of two dimensions.  Floats are exact rationals.  The drawing itself is
    matplotlib's; what is modelled is what it is asked to draw. *)
From Coq Require Import Qround.
From Verif Require Import Model.Base Model.Problems.

(** np.arange(a, b, step) of floats, leap_ec/real_rep/problems.py:1709 *)
Definition qarange (a b step : Q) : result (list Q) :=
  if Qeq_bool step 0 then Err ZeroDivisionError
  else Ok (map (fun k => a + inject_Z (Z.of_nat k) * step)%Q (seq 0 (Z.to_nat (Qceiling ((b - a) / step))))).

(** np.meshgrid, leap_ec/real_rep/problems.py:1711: a row per y, a column per x *)
Definition meshgrid (x y : list Q) : list (list Q) * list (list Q) := (map (fun _ => x) y, map (fun b => map (fun _ => b) x) y).

(** the type of the array np.vectorize makes; leap_ec/real_rep/problems.py:1705-1707 *)
Inductive dtype := DInt | DFloat.
(** the type of the first value, leap_ec/real_rep/problems.py:1705-1707 *)
Definition dtype_of (v : num) : dtype := match v with NInt _ => DInt | _ => DFloat end.
(** the conversion to that type, leap_ec/real_rep/problems.py:1705-1707; integers are unbounded here *)
Definition cast (d : dtype) (v : num) : result num :=
  match d, v with
  | DFloat, NInt z => Ok (NFlt false (Fin (inject_Z z)))
  | DFloat, NFlt _ e => Ok (NFlt false e)
  | DFloat, NNan => Ok NNan
  | DInt, NInt z => Ok (NInt z)
  | DInt, NFlt _ (Fin q) => Ok (NInt (Qtrunc q))
  | DInt, NFlt _ _ => Err OverflowError
  | DInt, NNan => Err ValueError
  end.
(** a conversion of a list, leap_ec/real_rep/problems.py:1705-1707 *)
Fixpoint map_cast (d : dtype) (vs : list num) : result (list num) :=
  match vs with [] => Ok [] | v :: r => bind (cast d v) (fun w => bind (map_cast d r) (fun ws => Ok (w :: ws))) end.
(** the values of an array with rows of n values, leap_ec/real_rep/problems.py:1705-1707 *)
Fixpoint rows_of {A} (n m : nat) (vs : list A) : list (list A) :=
  match m with 0 => [] | S k => firstn n vs :: rows_of n k (skipn n vs) end.

(** the pad argument, leap_ec/real_rep/problems.py:1697-1699: absent, an array, or something else *)
Inductive padding := NoPad | PadArray (l : list Q) | PadOther.
(** the kind of a plot, leap_ec/real_rep/problems.py:1651-1656 *)
Inductive kind := KSurface | KContour | KOther.
(** what is drawn, leap_ec/real_rep/problems.py:1716, 1778 *)
Record drawing := { d_kind : kind; d_x : list (list Q); d_y : list (list Q); d_z : list (list num) }.

Section Plot.
(** the function plotted; it may raise.  leap_ec/real_rep/problems.py:1662 *)
Variable fn : list Q -> result num.

(** calls in order, leap_ec/real_rep/problems.py:1705-1707: the values, and the arguments of all calls made *)
Fixpoint call_all (ps : list (list Q)) : result (list num) * list (list Q) :=
  match ps with
  | [] => (Ok [], [])
  | p :: r =>
      match fn p with
      | Err e => (Err e, [p])
      | Ok v => let '(res, made) := call_all r in (bind res (fun vs => Ok (v :: vs)), p :: made)
      end
  end.
(** @np.vectorize, leap_ec/real_rep/problems.py:1705-1707: the function is called on the first point to find the type of
    the result, then on every point; an empty array is refused *)
Definition vectorize (pad : list Q) (xx yy : list (list Q)) : result (list num) * list (list Q) :=
  match map (fun p => [fst p; snd p] ++ pad) (combine (concat xx) (concat yy)) with
  | [] => (Err ValueError, [])
  | p :: r =>
      match fn p with
      | Err e => (Err e, [p])
      | Ok first => let '(res, made) := call_all (p :: r) in (bind res (map_cast (dtype_of first)), p :: made)
      end
  end.

(** leap_ec/real_rep/problems.py:1695-1716, 1757-1778: what plot_2d_function and plot_2d_contour have in common, with the
    calls made.  The title and the axes are left out *)
Definition plot_grid (k : kind) (xlim ylim : list Q) (granularity : Q) (pad : padding) : result drawing * list (list Q) :=
  match xlim, ylim with
  | [x0; x1], [y0; y1] =>
      match pad with
      | PadOther => (Err AssertionError, [])
      | _ =>
          let pad := match pad with PadArray l => l | _ => [] end in
          match qarange x0 x1 granularity with
          | Err e => (Err e, [])
          | Ok x =>
              match qarange y0 y1 granularity with
              | Err e => (Err e, [])
              | Ok y =>
                  let '(xx, yy) := meshgrid x y in
                  let '(res, made) := vectorize pad xx yy in
                  (bind res (fun zs => Ok {| d_kind := k; d_x := xx; d_y := yy; d_z := rows_of (length x) (length y) zs |}), made)
              end
          end
      end
  | _, _ => (Err AssertionError, [])
  end.
(** leap_ec/real_rep/problems.py:1662-1716 plot_2d_function; further keyword arguments go to plot_surface *)
Definition plot_2d_function {K} (xlim ylim : list Q) (granularity : Q) (pad : padding) (kwargs : list K) : result drawing * list (list Q) :=
  plot_grid KSurface xlim ylim granularity pad.
(** leap_ec/real_rep/problems.py:1722-1778 plot_2d_contour, which takes no further keyword arguments *)
Definition plot_2d_contour {K} (xlim ylim : list Q) (granularity : Q) (pad : padding) (kwargs : list K) : result drawing * list (list Q) :=
  match kwargs with
  | [] => plot_grid KContour xlim ylim granularity pad
  | _ :: _ => (Err TypeError, [])
  end.

(** leap_ec/real_rep/problems.py:1576-1656 plot_2d_problem; [fn] is the problem's evaluate and [bounds] its attribute of
    that name, if it has one *)
Definition plot_2d_problem {K} (bounds : option (list Q)) (xlim ylim : option (list Q)) (k : kind) (granularity : option Q) (pad : padding)
    (kwargs : list K) : result drawing * list (list Q) :=
  let default l := match l with Some v => Ok v | None => match bounds with Some b => Ok b | None => Err AttributeError end end in
  match default xlim with
  | Err e => (Err e, [])
  | Ok xlim =>
      match default ylim with
      | Err e => (Err e, [])
      | Ok ylim =>
          let gr := match granularity with
                    | Some g => Ok g
                    | None => match bounds with
                              | None => Err ValueError
                              | Some b => match nth_error b 1, nth_error b 0 with
                                          | Some b1, Some b0 => Ok ((b1 - b0) / 50)%Q
                                          | _, _ => Err IndexError
                                          end
                              end
                    end in
          match gr with
          | Err e => (Err e, [])
          | Ok g =>
              match k with
              | KSurface => plot_2d_function xlim ylim g pad kwargs
              | KContour => plot_2d_contour xlim ylim g pad kwargs
              | KOther => (Err ValueError, [])
              end
          end
      end
  end.
End Plot.
