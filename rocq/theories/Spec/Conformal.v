(** Conformal maps of an ellipsoid. *)
From Coq Require Import Reals.
From Verif.Spec Require Import Maps.
Local Open Scope R_scope.

(** [x] and [z] are the meridian (see [meridian] in Spec/Maps.v); [east l p] and [north l p] are
    the map coordinates of longitude [l] and latitude [p].  On the ground a step [dl] in longitude
    is [x p * dl] to the east, a step [dp] in latitude is [m * dp] to the north.  The map enlarges
    both [s] times and turns both by the angle [g] to the left. *)
Definition conformal_at (x z : R -> R) (east north : R -> R -> R) (l p s g : R) : Prop :=
  exists x' z', derivable_pt_lim x p x' /\ derivable_pt_lim z p z' /\
  let m := sqrt (x' * x' + z' * z') in 0 < x p /\ 0 < m /\
  derivable_pt_lim (fun l => east l p) l (s * x p * cos g) /\
  derivable_pt_lim (fun l => north l p) l (s * x p * sin g) /\
  derivable_pt_lim (fun p => east l p) p (- (s * m * sin g)) /\
  derivable_pt_lim (fun p => north l p) p (s * m * cos g).

(** [D p] is the length of that meridian, from some point of it to latitude [p]. *)
Definition meridian_arc (x z D : R -> R) : Prop :=
  forall p, exists x' z', derivable_pt_lim x p x' /\ derivable_pt_lim z p z' /\
  derivable_pt_lim D p (sqrt (x' * x' + z' * z')).
