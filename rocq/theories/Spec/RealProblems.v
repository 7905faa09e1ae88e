(** Specifications for the real-valued benchmarks. *)
From Verif Require Import Model.Base Spec.Problems.

(** sum of f(0) .. f(n-1) *)
Definition sumn (n : nat) (f : nat -> Q) : Q := Qsum (map f (seq 0 n)).

(** the i-th coordinate of a vector and the entry in row i and column j of a matrix *)
Definition at_ (v : list Q) (i : nat) : Q := nth i v 0%Q.
Definition entry (m : list (list Q)) (i j : nat) : Q := at_ (nth i m []) j.

(** an n x n matrix *)
Definition is_square (n : nat) (m : list (list Q)) : Prop :=
  length m = n /\ Forall (fun row => length row = n) m.

(** the product of a matrix and a vector, coordinate by coordinate *)
Definition image (n : nat) (m : list (list Q)) (v : list Q) (i : nat) : Q :=
  sumn n (fun j => entry m i j * at_ v j)%Q.

(** the rows have length 1 and are pairwise perpendicular: what random_orthonormal_matrix asserts *)
Definition orthonormal_rows (n : nat) (m : list (list Q)) : Prop :=
  forall i k, i < n -> k < n ->
  (sumn n (fun j => entry m i j * entry m k j) == if i =? k then 1 else 0)%Q.

(** squared length *)
Definition sq_length (v : list Q) : Q := Qsum (map (fun x => x * x)%Q v).

(** two vectors with the same coordinates *)
Definition same_point (a b : list Q) : Prop := Forall2 Qeq a b.

(** a quadratic basin: centre, diagonal of the shape matrix, rotation, value at the centre *)
Definition basin_value (n : nat) (d : list (list Q)) (r : list (list Q)) (centre : list Q) (v : Q) (x : list Q) : Q :=
  (v + sumn n (fun i => entry d i i *
                 (sumn n (fun j => entry r i j * (at_ x j - at_ centre j)) * sumn n (fun j => entry r i j * (at_ x j - at_ centre j)))))%Q.

(** Shekel's foxholes: the j-th hole, j = 0..24, on a 5 x 5 grid with spacing 16 *)
Definition foxhole (c : nat -> Q) (x0 x1 : Q) (j : nat) : Q :=
  let a := inject_Z (16 * (Z.of_nat (j mod 5) - 2)) in
  let b := inject_Z (16 * (Z.of_nat (j / 5) - 2)) in
  (c j + (x0 - a) ^ 6 + (x1 - b) ^ 6)%Q.

(** all entries off the diagonal are zero *)
Definition is_diagonal (n : nat) (d : list (list Q)) : Prop :=
  is_square n d /\ forall i j, i < n -> j < n -> i <> j -> (entry d i j == 0)%Q.

(** parameters of a family of quadratic basins in n dimensions *)
Record basins_ok (n : nat) (ds rs : list (list (list Q))) (centres : list (list Q)) (values : list Q) : Prop := {
  bo_rs : length rs = length ds;
  bo_centres : length centres = length ds;
  bo_values : length values = length ds;
  bo_diag : Forall (is_diagonal n) ds;
  bo_square : Forall (is_square n) rs;
  bo_dim : Forall (fun c => length c = n) centres }.

(** the value of the i-th basin at x *)
Definition basin_at (n : nat) (ds rs : list (list (list Q))) (centres : list (list Q)) (values : list Q) (i : nat) (x : list Q) : Q :=
  basin_value n (nth i ds []) (nth i rs []) (nth i centres []) (nth i values 0%Q) x.
