(** Routes to, from and between reference systems with any of the projections, in binary64. *)
From Coq Require Import ZArith Reals List String.
From Flocq Require Import IEEE754.BinarySingleNaN.
From Verif.Num Require Import FOps F64.
From Verif.Model Require Import Fp Quantities Cs Ellipsoid Projections Crs.
From Verif.Spec Require Import Angles Axes Shape Maps Krueger Reach Binary64 Routes64 Maps64 Transverse64 MapRoutes64.
Local Open Scope R_scope.

(** A map on a grid of meridians and parallels: [c] metres to the radian of longitude from [lon0];
    a longitude near the edge is shown there and a full turn away. *)
Definition grid_chart (lon0 fe c : R) (north : R -> R) : chart :=
  fun l p x y => exists d, same_angle (lon0 + d) l /\ Rabs d <= 16 / 5 /\ x = fe + c * d /\ y = north p.
Definition grid_reads (l p : R) : Prop := Rabs p <= 89 * PI / 180.
Definition grid_draws (l p : R) : Prop := Rabs p <= 88 * PI / 180.
(** The error of reading it: [tol] for the latitude, [t] metres on the map, rounding. *)
Definition grid_error (c tol t : R) : R := tol + 21 / 10 * t / c + 2 / 10 ^ 13.

(** The projections with their parameters and what they draw: the chart, where it is read, where it is
    drawn and how well it is read ([c] and [k], from Spec/Reach.v, matter for transverse Mercator only). *)
Inductive maps64 (a b c k : R) : ProjectionSpec f64 -> chart -> (R -> R -> Prop) -> (R -> R -> Prop) -> (R -> R) -> Prop :=
| a_transverse_mercator lon0 lat0 k0 fe fn l0 p0 s e n east north :
    val64 lon0 l0 -> val64 lat0 p0 -> val64 k0 s -> val64 fe e -> val64 fn n -> transverse_map a b l0 p0 s e n east north ->
    maps64 a b c k (STransverseMercator lon0 lat0 k0 fe fn) (shown_by east north) (tm_reads l0 c) (tm_draws l0) (tm_error a b s k)
| a_utm south z l0 s east north : (exists j : Z, Rabs (l0 - ((6 * IZR z - 180) * (PI / 180) + IZR j * (2 * PI))) <= / 10 ^ 14) ->
    Rabs (s - 0.9996) <= / 10 ^ 15 -> transverse_map a b l0 0 s 500000 (utm_northing south) east north ->
    maps64 a b c k (utm64 south z) (shown_by east north) (tm_reads l0 c) (tm_draws l0) (tm_error a b s k)
| a_web_mercator lon0 lat0 fe fn l0 e n north : val64 lon0 l0 -> val64 fe e -> val64 fn n -> sphere_north a n north ->
    maps64 a b c k (SWebMercator lon0 lat0 fe fn) (grid_chart l0 e a north) grid_reads grid_draws (grid_error a 0)
| a_mercator_1sp lon0 k0 fe fn l0 s e n r north : val64 lon0 l0 -> val64 k0 s -> val64 fe e -> val64 fn n ->
    scale_at a b r 0 s -> conformal_north a b n r north ->
    maps64 a b c k (SMercator1SP lon0 k0 fe fn) (grid_chart l0 e r north) grid_reads grid_draws (grid_error r (((a - b) * (a + b) / (a * a)) ^ 5))
| a_mercator_2sp lon0 lat0 fe fn l0 p0 e n r north : val64 lon0 l0 -> val64 lat0 p0 -> val64 fe e -> val64 fn n ->
    scale_at a b r p0 1 -> conformal_north a b n r north ->
    maps64 a b c k (SMercator2SP lon0 lat0 fe fn) (grid_chart l0 e r north) grid_reads grid_draws (grid_error r (((a - b) * (a + b) / (a * a)) ^ 5)).

(** Parameters in range. *)
Inductive in_range64 : ProjectionSpec f64 -> Prop :=
| r_tm lon0 lat0 k0 fe fn l0 p0 s e n : val64 lon0 l0 -> val64 lat0 p0 -> val64 k0 s -> val64 fe e -> val64 fn n ->
    Rabs l0 <= 4 -> Rabs p0 <= 84 * PI / 180 -> 9 / 10 <= s <= 11 / 10 -> Rabs e <= 100000000 -> Rabs n <= 100000000 -> in_range64 (STransverseMercator lon0 lat0 k0 fe fn)
| r_utm south z : (1 <= z <= 60)%Z -> in_range64 (utm64 south z)
| r_web lon0 lat0 fe fn l0 e n : val64 lon0 l0 -> val64 fe e -> val64 fn n ->
    Rabs l0 <= 4 -> Rabs e <= 100000000 -> Rabs n <= 100000000 -> in_range64 (SWebMercator lon0 lat0 fe fn)
| r_1sp lon0 k0 fe fn l0 s e n : val64 lon0 l0 -> val64 k0 s -> val64 fe e -> val64 fn n ->
    Rabs l0 <= 4 -> / 2 <= s <= 2 -> Rabs e <= 100000000 -> Rabs n <= 100000000 -> in_range64 (SMercator1SP lon0 k0 fe fn)
| r_2sp lon0 lat0 fe fn l0 p0 e n : val64 lon0 l0 -> val64 lat0 p0 -> val64 fe e -> val64 fn n ->
    Rabs l0 <= 4 -> Rabs p0 <= PI / 3 -> Rabs e <= 100000000 -> Rabs n <= 100000000 -> in_range64 (SMercator2SP lon0 lat0 fe fn).
