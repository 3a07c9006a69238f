(** The transverse Mercator projection by the Gauss-Krueger series (EPSG guidance note 7-2,
    method 9807, USGS/JHS formulas). *)
From Coq Require Import Reals.
From Verif.Spec Require Import Maps.
Local Open Scope R_scope.

Definition latitude (p : R) : Prop := - (PI / 2) <= p <= PI / 2.

(** (xi, eta) |-> (xi + sum h_j sin 2j xi cosh 2j eta, eta + sum h_j cos 2j xi sinh 2j eta), that
    is zeta + sum h_j sin (2j zeta) for zeta = xi + i eta. *)
Definition krueger (h : R * R * R * R) (z : R * R) : R * R :=
  let '(h1, h2, h3, h4) := h in
  let '(x, y) := z in
  (x + (h1 * (sin (2 * x) * cosh (2 * y)) + h2 * (sin (4 * x) * cosh (4 * y)) +
        h3 * (sin (6 * x) * cosh (6 * y)) + h4 * (sin (8 * x) * cosh (8 * y))),
   y + (h1 * (cos (2 * x) * sinh (2 * y)) + h2 * (cos (4 * x) * sinh (4 * y)) +
        h3 * (cos (6 * x) * sinh (6 * y)) + h4 * (cos (8 * x) * sinh (8 * y)))).

(** The published coefficients, n the third flattening. *)
Definition kr_direct (n : R) : R * R * R * R :=
  (n / 2 - 2 / 3 * n ^ 2 + 5 / 16 * n ^ 3 + 41 / 180 * n ^ 4,
   13 / 48 * n ^ 2 - 3 / 5 * n ^ 3 + 557 / 1440 * n ^ 4,
   61 / 240 * n ^ 3 - 103 / 140 * n ^ 4,
   49561 / 161280 * n ^ 4).
Definition kr_reverse (n : R) : R * R * R * R :=
  (- (n / 2 - 2 / 3 * n ^ 2 + 37 / 96 * n ^ 3 - 1 / 360 * n ^ 4),
   - (1 / 48 * n ^ 2 + 1 / 15 * n ^ 3 - 437 / 1440 * n ^ 4),
   - (17 / 480 * n ^ 3 - 37 / 840 * n ^ 4),
   - (4397 / 161280 * n ^ 4)).
(** The radius of the sphere whose meridians are as long as those of the ellipsoid, to order 4. *)
Definition kr_radius (a n : R) : R := a / (1 + n) * (1 + n ^ 2 / 4 + n ^ 4 / 64).
Definition third_flattening (a b : R) : R := (a - b) / (a + b).
Definition eccentricity_squared (a b : R) : R := (a * a - b * b) / (a * a).
