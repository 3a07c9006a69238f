(** Axes, tolerances, Cartesian distance. *)
From Coq Require Import Reals Lra Lia ZArith Bool List Psatz.
From Flocq Require Import Core IEEE754.BinarySingleNaN.
From Verif.Num Require Import FOps RFun XR XRLemmas F64 F64Lemmas.
From Verif.Model Require Import Fp Quantities Cs Ellipsoid Geodesics Projections Crs.
From Verif.Spec Require Import Angles Axes.
From Verif.Proofs Require Import AnglesX AnglesEx MathF.
Import ListNotations.
Local Open Scope R_scope.

(** ** Units *)
Lemma worth_nz u k : worth u k -> k <> 0.
Proof. intros (p & q & -> & Hp & Hq & ->). now apply ratio_nz. Qed.
Lemma angle_new_worth u k x : worth u k -> angle_new (Fin x) u = Fin (x * k).
Proof.
  intros (p & q & -> & Hp & Hq & ->). unfold angle_new. rewrite per_unit_fin by easy. now xr.
Qed.
Lemma length_new_worth u k x : worth u k -> length_new (Fin x) u = Fin (x * k).
Proof. apply angle_new_worth. Qed.
Lemma angle_val_worth u k x : worth u k -> angle_val (Fin x) u = Fin (x / k).
Proof.
  intros (p & q & -> & Hp & Hq & ->). unfold angle_val. cbn [fst snd]. xr.
  rewrite xdiv_fin by easy. f_equal. field. easy.
Qed.
Lemma length_val_worth u k x : worth u k -> length_val (Fin x) u = Fin (x / k).
Proof.
  intros W. pose proof (worth_nz _ _ W). destruct W as (p & q & -> & Hp & Hq & ->).
  unfold length_val. rewrite per_unit_fin by easy. now rewrite xdiv_fin.
Qed.
Lemma worth_M : worth (M (F := XR)) 1.
Proof. exists 1, 1. repeat split; try lra. Qed.
Lemma worth_RAD : worth (RAD (F := XR)) 1.
Proof. exists 1, 1. repeat split; try lra. Qed.

(** ** Normalize *)
Lemma index_0 {A} (x : A) l : index (x :: l) 0 = Ret x. Proof. reflexivity. Qed.
Lemma index_1 {A} (x y : A) l : index (x :: y :: l) 1 = Ret y. Proof. reflexivity. Qed.
Lemma index_2 {A} (x y z : A) l : index (x :: y :: z :: l) 2 = Ret z. Proof. reflexivity. Qed.

Lemma gaxes_normalize_reads ax buf l p h rest : geo_reads ax buf l p h ->
  gaxes_normalize ax (map Fin buf ++ rest) =
  Ret (mkLLH (lon_new (Fin l)) (lat_new (Fin p)) (Fin (height_of h))).
Proof.
  intros H. destruct H; cbn [map app gaxes_normalize]; rewrite ?index_0, ?index_1, ?index_2;
    cbn [obind height_of]; xr;
    rewrite ?(angle_new_worth _ ku) by easy; rewrite ?(length_new_worth _ kv) by easy;
    reflexivity.
Qed.
Lemma geo_normalize_any ax buf l p h rest : geo_reads ax buf l p h ->
  exists lw pw,
  gaxes_normalize ax (map Fin buf ++ rest) = Ret (mkLLH (Fin lw) (Fin pw) (Fin (height_of h))) /\
  - PI <= lw <= PI /\ same_angle lw l /\ pw = Rmax (- (PI / 2)) (Rmin (PI / 2) p).
Proof.
  intros H. rewrite (gaxes_normalize_reads _ _ _ _ _ _ H), lon_new_fin, lat_new_fin.
  eexists. eexists. split; [reflexivity|]. destruct (Rwrap_spec l) as (H1 & H2 & _).
  split; [easy|]. split; [easy|]. pose proof PI_pos. unfold Rclamp, Rmax, Rmin.
  destruct (Rlt_bool_spec p (- (PI / 2))), (Rlt_bool_spec (PI / 2) p);
    destruct (Rle_dec (PI / 2) p); destruct (Rle_dec (- (PI / 2)) _); lra.
Qed.
Lemma geo_normalize_in_range ax buf l p h rest : geo_reads ax buf l p h ->
  - PI <= l <= PI -> - (PI / 2) <= p <= PI / 2 ->
  gaxes_normalize ax (map Fin buf ++ rest) = Ret (mkLLH (Fin l) (Fin p) (Fin (height_of h))).
Proof.
  intros H Hl Hp. rewrite (gaxes_normalize_reads _ _ _ _ _ _ H), lat_new_id by easy.
  unfold lon_new. now rewrite wrapped_identity.
Qed.

(** ** Denormalize *)
Lemma units2 u v : units_ok [u; v] -> exists k k0, worth u k /\ worth v k0.
Proof.
  intros U. apply Forall_cons_iff in U as [[k W] U]. apply Forall_cons_iff in U as [[k0 W0] _].
  now exists k, k0.
Qed.
Lemma units1 u : units_ok [u] -> exists k, worth u k.
Proof. intros U. now apply Forall_cons_iff in U as [? _]. Qed.
Lemma len2 {A} (l : list A) : (2 <= length l)%nat -> exists a b r, l = a :: b :: r.
Proof. destruct l as [|a [|b r]]; simpl; try lia. intros _. now exists a, b, r. Qed.
Lemma len3 {A} (l : list A) : (3 <= length l)%nat -> exists a b c r, l = a :: b :: c :: r.
Proof. destruct l as [|a [|b [|c r]]]; simpl; try lia. intros _. now exists a, b, c, r. Qed.

Lemma geo_denormalize ax l p h buf : units_ok (geo_units ax) -> (gaxes_dim ax <= length buf)%nat ->
  exists out,
  gaxes_denormalize ax (mkLLH (Fin l) (Fin p) (Fin h)) buf = Ret (map Fin out ++ skipn (gaxes_dim ax) buf) /\
  length out = gaxes_dim ax /\ geo_reads ax out l p (carried (gaxes_dim ax) h).
Proof.
  intros U L. destruct ax as [u v|u v|u|u|u]; cbn [geo_units] in U;
  (destruct (units2 _ _ U) as (k & k0 & W & W0) || destruct (units1 _ U) as (k & W));
  cbn [gaxes_dim] in *; (destruct (len3 _ L) as (a & b & c & r & ->) || destruct (len2 _ L) as (a & b & r & ->));
  cbn [gaxes_denormalize list_set obind lon lat height skipn].
  - rewrite !(angle_val_worth _ k) by easy. rewrite (length_val_worth _ k0) by easy. xr.
    exists [l / k; p / k; h / k0]. split; [easy|]. split; [easy|]. cbn [carried Nat.eqb].
    pose proof (worth_nz _ _ W). pose proof (worth_nz _ _ W0).
    replace l with (l / k * k) at 2 by (field; easy). replace p with (p / k * k) at 2 by (field; easy).
    replace h with (h / k0 * k0) at 2 by (field; easy). now constructor.
  - rewrite !(angle_val_worth _ k) by easy. rewrite (length_val_worth _ k0) by easy. xr.
    exists [p / k; l / k; h / k0]. split; [easy|]. split; [easy|]. cbn [carried Nat.eqb].
    pose proof (worth_nz _ _ W). pose proof (worth_nz _ _ W0).
    replace l with (l / k * k) at 2 by (field; easy). replace p with (p / k * k) at 2 by (field; easy).
    replace h with (h / k0 * k0) at 2 by (field; easy). now constructor.
  - rewrite !(angle_val_worth _ k) by easy. xr.
    exists [l / k; p / k]. split; [easy|]. split; [easy|]. cbn [carried Nat.eqb].
    pose proof (worth_nz _ _ W).
    replace l with (l / k * k) at 2 by (field; easy). replace p with (p / k * k) at 2 by (field; easy).
    now constructor.
  - rewrite !(angle_val_worth _ k) by easy. xr.
    exists [p / k; l / k]. split; [easy|]. split; [easy|]. cbn [carried Nat.eqb].
    pose proof (worth_nz _ _ W).
    replace l with (l / k * k) at 2 by (field; easy). replace p with (p / k * k) at 2 by (field; easy).
    now constructor.
  - rewrite !(angle_val_worth _ k) by easy. xr.
    exists [p / k; - (l / k)]. split; [easy|]. split; [easy|]. cbn [carried Nat.eqb].
    pose proof (worth_nz _ _ W).
    replace l with (- - (l / k) * k) at 2 by (field; easy). replace p with (p / k * k) at 2 by (field; easy).
    now constructor.
Qed.
Lemma geo_normalize_denormalize ax l p h buf : units_ok (geo_units ax) -> (gaxes_dim ax <= length buf)%nat ->
  - PI <= l <= PI -> - (PI / 2) <= p <= PI / 2 ->
  obind (gaxes_denormalize ax (mkLLH (Fin l) (Fin p) (Fin h)) buf) (gaxes_normalize ax) =
  Ret (mkLLH (Fin l) (Fin p) (Fin (height_of (carried (gaxes_dim ax) h)))).
Proof.
  intros U L Hl Hp. destruct (geo_denormalize ax l p h buf U L) as (out & -> & _ & R).
  cbn [obind]. now apply geo_normalize_in_range.
Qed.
Lemma geo_reads_inj ax b1 b2 l p h : geo_reads ax b1 l p h -> geo_reads ax b2 l p h -> b1 = b2.
Proof.
  assert (WU : forall u k k', worth u k -> worth u k' -> k = k').
  { intros u k k' (a & b & E & _ & _ & ->) (a' & b' & E' & _ & _ & ->). congruence. }
  assert (MI : forall k x y, k <> 0 -> x * k = y * k -> x = y) by (intros; now apply (Rmult_eq_reg_r k)).
  intros H1 H2; destruct H1; inversion H2; subst;
  pose proof (WU _ _ _ H ltac:(eassumption)); subst;
  try (pose proof (WU _ _ _ H0 ltac:(eassumption)); subst);
  pose proof (worth_nz _ _ H); try pose proof (worth_nz _ _ H0).
  all: repeat f_equal; try (eapply MI; [|eassumption]; easy); try (symmetry; eapply MI; [|eassumption]; easy).
  - assert (- w = - w0) by (symmetry; eapply MI; [|eassumption]; easy). lra.
Qed.
Lemma geo_reads_units ax buf l p h : geo_reads ax buf l p h ->
  units_ok (geo_units ax) /\ length buf = gaxes_dim ax /\ h = carried (gaxes_dim ax) (height_of h).
Proof.
  intros H; destruct H; cbn; (split; [|easy]); unfold units_ok; repeat constructor; eexists; eauto.
Qed.
Lemma geo_denormalize_normalize ax buf l p h rest dst : geo_reads ax buf l p h ->
  - PI <= l <= PI -> - (PI / 2) <= p <= PI / 2 -> (gaxes_dim ax <= length dst)%nat ->
  obind (gaxes_normalize ax (map Fin buf ++ rest)) (fun llh => gaxes_denormalize ax llh dst) =
  Ret (map Fin buf ++ skipn (gaxes_dim ax) dst).
Proof.
  intros H Hl Hp L. rewrite (geo_normalize_in_range _ _ _ _ _ _ H Hl Hp). cbn [obind].
  destruct (geo_reads_units _ _ _ _ _ H) as (U & _ & Eh).
  destruct (geo_denormalize ax l p (height_of h) dst U L) as (out & -> & _ & R).
  rewrite <- Eh in R. now rewrite (geo_reads_inj _ _ _ _ _ _ R H).
Qed.

(** ** Projected and geocentric axes *)
Lemma proj_normalize ax buf e n h rest : proj_reads ax buf e n h ->
  paxes_normalize ax (map Fin buf ++ rest) = Ret (mkENH (Fin e) (Fin n) (Fin (height_of h))).
Proof.
  intros H. destruct H; cbn [map app paxes_normalize]; rewrite ?index_0, ?index_1, ?index_2;
    cbn [obind height_of]; xr;
    rewrite ?(length_new_worth _ ku) by easy; rewrite ?(length_new_worth _ kv) by easy; reflexivity.
Qed.
Lemma proj_denormalize ax e n h buf : units_ok (proj_units ax) -> (paxes_dim ax <= length buf)%nat ->
  exists out,
  paxes_denormalize ax (mkENH (Fin e) (Fin n) (Fin h)) buf = Ret (map Fin out ++ skipn (paxes_dim ax) buf) /\
  length out = paxes_dim ax /\ proj_reads ax out e n (carried (paxes_dim ax) h).
Proof.
  intros U L. destruct ax as [u v|u]; cbn [proj_units] in U;
  (destruct (units2 _ _ U) as (k & k0 & W & W0) || destruct (units1 _ U) as (k & W));
  cbn [paxes_dim] in *; (destruct (len3 _ L) as (a & b & c & r & ->) || destruct (len2 _ L) as (a & b & r & ->));
  cbn [paxes_denormalize list_set obind easting northing eheight skipn].
  - rewrite !(length_val_worth _ k) by easy. rewrite (length_val_worth _ k0) by easy. xr.
    exists [e / k; n / k; h / k0]. split; [easy|]. split; [easy|]. cbn [carried Nat.eqb].
    pose proof (worth_nz _ _ W). pose proof (worth_nz _ _ W0).
    replace e with (e / k * k) at 2 by (field; easy). replace n with (n / k * k) at 2 by (field; easy).
    replace h with (h / k0 * k0) at 2 by (field; easy). now constructor.
  - rewrite !(length_val_worth _ k) by easy. xr.
    exists [e / k; n / k]. split; [easy|]. split; [easy|]. cbn [carried Nat.eqb].
    pose proof (worth_nz _ _ W).
    replace e with (e / k * k) at 2 by (field; easy). replace n with (n / k * k) at 2 by (field; easy).
    now constructor.
Qed.
Lemma proj_normalize_denormalize ax e n h buf : units_ok (proj_units ax) -> (paxes_dim ax <= length buf)%nat ->
  obind (paxes_denormalize ax (mkENH (Fin e) (Fin n) (Fin h)) buf) (paxes_normalize ax) =
  Ret (mkENH (Fin e) (Fin n) (Fin (height_of (carried (paxes_dim ax) h)))).
Proof.
  intros U L. destruct (proj_denormalize ax e n h buf U L) as (out & -> & _ & R).
  cbn [obind]. now apply proj_normalize.
Qed.
Lemma proj_denormalize_normalize ax buf e n h rest dst : proj_reads ax buf e n h ->
  (paxes_dim ax <= length dst)%nat ->
  obind (paxes_normalize ax (map Fin buf ++ rest)) (fun p => paxes_denormalize ax p dst) =
  Ret (map Fin buf ++ skipn (paxes_dim ax) dst).
Proof.
  intros H L. rewrite (proj_normalize _ _ _ _ _ _ H). cbn [obind].
  destruct H as [u v ku kv e n up Wu Wv|u ku e n Wu].
  - cbn [paxes_dim] in *. destruct (len3 _ L) as (a & b & c & r & ->).
    cbn [paxes_denormalize list_set obind easting northing eheight skipn height_of].
    rewrite !(length_val_worth _ ku) by easy. rewrite (length_val_worth _ kv) by easy.
    pose proof (worth_nz _ _ Wu). pose proof (worth_nz _ _ Wv). cbn [map app].
    repeat f_equal; field; easy.
  - cbn [paxes_dim] in *. destruct (len2 _ L) as (a & b & r & ->).
    cbn [paxes_denormalize list_set obind easting northing eheight skipn height_of].
    rewrite !(length_val_worth _ ku) by easy.
    pose proof (worth_nz _ _ Wu). cbn [map app]. repeat f_equal; field; easy.
Qed.
Lemma xyz_normalize_denormalize (p : XYZ XR) buf : (3 <= length buf)%nat ->
  obind (xaxes_denormalize p buf) xaxes_normalize = Ret p /\
  exists x y z, xaxes_denormalize p buf = Ret ([x; y; z] ++ skipn 3 buf) /\ p = mkXYZ x y z.
Proof.
  intros L. destruct (len3 _ L) as (a & b & c & r & ->). destruct p as [x y z].
  unfold xaxes_denormalize, xaxes_normalize. cbn [list_set obind x_ y_ z_].
  rewrite index_0, index_1, index_2. cbn [obind]. rewrite !length_new_M. split; [easy|].
  now exists x, y, z.
Qed.
Lemma xyz_denormalize_normalize (x y z : XR) rest dst : (3 <= length dst)%nat ->
  obind (xaxes_normalize (x :: y :: z :: rest)) (fun p => xaxes_denormalize p dst) =
  Ret (x :: y :: z :: skipn 3 dst).
Proof.
  intros L. destruct (len3 _ L) as (a & b & c & r & ->).
  unfold xaxes_denormalize, xaxes_normalize.
  rewrite index_0, index_1, index_2. cbn [obind]. rewrite !length_new_M. reflexivity.
Qed.

(** ** Frame conditions, in any arithmetic *)
Section Frame.
Context {F : Type} {ops : FOps F}.

Lemma list_set_short {A} (l : list A) i v : (length l <= i)%nat -> list_set l i v = Panic.
Proof.
  revert i. induction l as [|a l IH]; intros [|i] H; simpl in *; try lia; [easy|easy|].
  now rewrite IH by lia.
Qed.
Ltac shortbuf :=
  match goal with c : list _ |- _ => destruct c as [|a [|b [|d r]]]; cbn [length] in *; try lia end.

Definition writes_first (f : list F -> outcome (list F)) (dim : nat) : Prop :=
  exists out, length out = dim /\ forall buf,
    f buf = if Nat.leb dim (length buf) then Ret (out ++ skipn dim buf) else Panic.
Lemma geo_writes ax llh : writes_first (gaxes_denormalize ax llh) (gaxes_dim ax).
Proof.
  destruct ax; cbn [gaxes_dim gaxes_denormalize];
  (eexists [_; _; _]; split; [reflexivity|]; intros [|a [|b [|c r]]]; reflexivity) ||
  (eexists [_; _]; split; [reflexivity|]; intros [|a [|b r]]; reflexivity).
Qed.
Lemma proj_writes ax p : writes_first (paxes_denormalize ax p) (paxes_dim ax).
Proof.
  destruct ax; cbn [paxes_dim paxes_denormalize];
  (eexists [_; _; _]; split; [reflexivity|]; intros [|a [|b [|c r]]]; reflexivity) ||
  (eexists [_; _]; split; [reflexivity|]; intros [|a [|b r]]; reflexivity).
Qed.
Lemma xyz_writes p : writes_first (xaxes_denormalize p) xaxes_dim.
Proof.
  unfold xaxes_dim, xaxes_denormalize.
  eexists [_; _; _]; split; [reflexivity|]; intros [|a [|b [|c r]]]; reflexivity.
Qed.

Definition reads_first {B} (f : list F -> outcome B) (dim : nat) : Prop :=
  forall buf, (length buf < dim)%nat /\ f buf = Panic \/
              (dim <= length buf)%nat /\ f buf = f (firstn dim buf) /\ exists b, f buf = Ret b.
Lemma geo_reads_first ax : reads_first (gaxes_normalize ax) (gaxes_dim ax).
Proof.
  intros buf. destruct ax; cbn [gaxes_dim gaxes_normalize];
  destruct buf as [|a [|b [|c r]]]; cbn [length firstn];
    try (left; split; [lia|reflexivity]); right; (split; [lia|]); (split; [reflexivity|]);
    eexists; reflexivity.
Qed.
Lemma proj_reads_first ax : reads_first (paxes_normalize ax) (paxes_dim ax).
Proof.
  intros buf. destruct ax; cbn [paxes_dim paxes_normalize];
  destruct buf as [|a [|b [|c r]]]; cbn [length firstn];
    try (left; split; [lia|reflexivity]); right; (split; [lia|]); (split; [reflexivity|]);
    eexists; reflexivity.
Qed.
Lemma xyz_reads_first : reads_first xaxes_normalize xaxes_dim.
Proof.
  intros buf. unfold xaxes_dim, xaxes_normalize.
  destruct buf as [|a [|b [|c r]]]; cbn [length firstn];
    try (left; split; [lia|reflexivity]); right; (split; [lia|]); (split; [reflexivity|]);
    eexists; reflexivity.
Qed.

(** ** Crs::approx_eq *)
Lemma crs_dim_2_3 (c : Crs F) : crs_dim c = 2%nat \/ crs_dim c = 3%nat.
Proof.
  destruct c as [i d|i d ax|i d ax s]; cbn [crs_dim]; [now right| |];
  destruct ax; cbn; auto.
Qed.
Lemma crs_approx_eq_panics (c : Crs F) a b tol :
  length a <> crs_dim c \/ length b <> crs_dim c -> crs_approx_eq c a b tol = Panic.
Proof.
  unfold crs_approx_eq, rassert. intros [H|H].
  - apply Nat.eqb_neq in H. now rewrite H.
  - apply Nat.eqb_neq in H. rewrite H. now destruct (Nat.eqb (length a) (crs_dim c)).
Qed.
Lemma crs_approx_eq_all (c : Crs F) a b tol :
  length a = crs_dim c -> length b = crs_dim c -> length tol = crs_dim c ->
  crs_approx_eq c a b tol = Ret (all_within a b tol).
Proof.
  unfold crs_approx_eq, rassert. intros Ea Eb Et.
  rewrite (proj2 (Nat.eqb_eq _ _) Ea), (proj2 (Nat.eqb_eq _ _) Eb).
  destruct (crs_dim_2_3 c) as [D|D]; rewrite D in *.
  - destruct a as [|a0 [|a1 [|? ?]]]; try discriminate.
    destruct b as [|b0 [|b1 [|? ?]]]; try discriminate.
    destruct tol as [|t0 [|t1 [|? ?]]]; try discriminate.
    unfold axis_close. rewrite !index_0, !index_1. cbn [obind].
    unfold all_within, f_abs_diff_eq. cbn [combine forallb fst snd].
    destruct (fle (fabs (fsub a0 b0)) t0); cbn [obind andb]; [|easy]. now rewrite andb_true_r.
  - destruct a as [|a0 [|a1 [|a2 [|? ?]]]]; try discriminate.
    destruct b as [|b0 [|b1 [|b2 [|? ?]]]]; try discriminate.
    destruct tol as [|t0 [|t1 [|t2 [|? ?]]]]; try discriminate.
    unfold axis_close. rewrite !index_0, !index_1, !index_2. cbn [obind].
    unfold all_within, f_abs_diff_eq. cbn [combine forallb fst snd].
    destruct (fle (fabs (fsub a0 b0)) t0); cbn [obind andb]; [|easy].
    destruct (fle (fabs (fsub a1 b1)) t1); cbn [obind andb]; [|easy]. now rewrite andb_true_r.
Qed.
Lemma crs_approx_eq_short_tol (c : Crs F) a b tol :
  length a = crs_dim c -> length b = crs_dim c -> (length tol < crs_dim c)%nat ->
  all_within a b tol = true -> crs_approx_eq c a b tol = Panic.
Proof.
  unfold crs_approx_eq, rassert. intros Ea Eb Et.
  rewrite (proj2 (Nat.eqb_eq _ _) Ea), (proj2 (Nat.eqb_eq _ _) Eb).
  destruct (crs_dim_2_3 c) as [D|D]; rewrite D in *.
  - destruct a as [|a0 [|a1 [|? ?]]]; try discriminate.
    destruct b as [|b0 [|b1 [|? ?]]]; try discriminate.
    destruct tol as [|t0 [|t1 [|? ?]]]; cbn [length] in Et; try lia; [easy|].
    unfold axis_close. rewrite !index_0, !index_1. cbn [obind].
    unfold all_within, f_abs_diff_eq. cbn [combine forallb fst snd].
    rewrite andb_true_r. intros ->. reflexivity.
  - destruct a as [|a0 [|a1 [|a2 [|? ?]]]]; try discriminate.
    destruct b as [|b0 [|b1 [|b2 [|? ?]]]]; try discriminate.
    destruct tol as [|t0 [|t1 [|t2 ?]]]; cbn [length] in Et; try lia; [easy| |].
    + unfold axis_close. rewrite !index_0, !index_1. cbn [obind].
      unfold all_within, f_abs_diff_eq. cbn [combine forallb fst snd].
      rewrite andb_true_r. intros ->. reflexivity.
    + unfold axis_close. rewrite !index_0, !index_1, !index_2. cbn [obind].
      unfold all_within, f_abs_diff_eq. cbn [combine forallb fst snd].
      rewrite andb_true_r. intros H. apply andb_true_iff in H as [-> ->]. reflexivity.
Qed.
End Frame.

(** ** Tolerances *)
Lemma Rle_bool_iff a b : Rle_bool a b = true <-> a <= b.
Proof. destruct (Rle_bool_spec a b); split; intros; try lra; easy. Qed.
Lemma scaled_within x y k t : 0 < k -> (Rabs (x - y) <= t / k <-> Rabs (x * k - y * k) <= t).
Proof.
  intros Hk. replace (x * k - y * k) with ((x - y) * k) by ring.
  rewrite Rabs_mult, (Rabs_pos_eq k) by lra. split; intros H.
  - apply Rmult_le_reg_r with (/ k); [now apply Rinv_0_lt_compat|].
    rewrite Rmult_assoc, Rinv_r by lra. unfold Rdiv in H. lra.
  - apply Rmult_le_reg_r with k; [easy|]. unfold Rdiv. rewrite Rmult_assoc, Rinv_l by lra. lra.
Qed.
Lemma units_positive_ok us : units_positive us -> units_ok us.
Proof. apply Forall_impl. intros u (k & H & _). now exists k. Qed.
Lemma worth_unique u k k' : worth u k -> worth u k' -> k = k'.
Proof. intros (a & b & E & _ & _ & ->) (a' & b' & E' & _ & _ & ->). congruence. Qed.

Lemma geo_tol id d ax a b l1 p1 h1 l2 p2 h2 tl tp th :
  units_positive (geo_units ax) -> geo_reads ax a l1 p1 h1 -> geo_reads ax b l2 p2 h2 ->
  exists r, crs_approx_eq (GeographicCrs id d ax) (map Fin a) (map Fin b)
              (gaxes_denormalize_tol ax (mkGT (Fin tl) (Fin tp) (Fin th))) = Ret r /\
  (r = true <-> Rabs (l1 - l2) <= tl /\ Rabs (p1 - p2) <= tp /\ heights_within h1 h2 th).
Proof.
  intros U H1 H2.
  destruct H1; inversion H2; subst; cbn [geo_units] in U; unfold units_positive in U;
  repeat match goal with U : Forall _ (_ :: _) |- _ => apply Forall_cons_iff in U; destruct U end;
  repeat match goal with U : exists k, worth _ k /\ 0 < k |- _ =>
     let k := fresh "k" in let W := fresh "W" in let P := fresh "P" in destruct U as (k & W & P) end;
  repeat match goal with W : worth ?u ?k, W' : worth ?u ?k' |- _ =>
     assert_fails (constr_eq k k'); pose proof (worth_unique u k k' W W'); subst end;
  eexists; (split; [apply crs_approx_eq_all; reflexivity|]);
  unfold all_within; cbn [map gaxes_denormalize_tol gt_lon gt_lat gt_height combine forallb fst snd heights_within];
  repeat match goal with W : worth ?u ?k |- _ => 
    rewrite ?(angle_val_worth u k) by exact W; rewrite ?(length_val_worth u k) by exact W; clear W end; xr;
  rewrite ?andb_true_iff, ?Rle_bool_iff, ?scaled_within by easy; try tauto.
  match goal with |- context [- w * ?k - - w0 * ?k] =>
    replace (- w * k - - w0 * k) with (- (w * k - w0 * k)) by ring end.
  rewrite Rabs_Ropp. tauto.
Qed.
Lemma proj_tol id d ax s a b e1 n1 h1 e2 n2 h2 t th :
  units_positive (proj_units ax) -> proj_reads ax a e1 n1 h1 -> proj_reads ax b e2 n2 h2 ->
  exists r, crs_approx_eq (ProjectedCrs id d ax s) (map Fin a) (map Fin b)
              (paxes_denormalize_tol ax (mkPT (Fin t) (Fin th))) = Ret r /\
  (r = true <-> Rabs (e1 - e2) <= t /\ Rabs (n1 - n2) <= t /\ heights_within h1 h2 th).
Proof.
  intros U H1 H2.
  destruct H1; inversion H2; subst; cbn [proj_units] in U; unfold units_positive in U;
  repeat match goal with U : Forall _ (_ :: _) |- _ => apply Forall_cons_iff in U; destruct U end;
  repeat match goal with U : exists k, worth _ k /\ 0 < k |- _ =>
     let k := fresh "k" in let W := fresh "W" in let P := fresh "P" in destruct U as (k & W & P) end;
  repeat match goal with W : worth ?u ?k, W' : worth ?u ?k' |- _ =>
     assert_fails (constr_eq k k'); pose proof (worth_unique u k k' W W'); subst end;
  eexists; (split; [apply crs_approx_eq_all; reflexivity|]);
  unfold all_within; cbn [map paxes_denormalize_tol pt_horiz pt_height combine forallb fst snd heights_within];
  repeat match goal with W : worth ?u ?k |- _ => 
    rewrite ?(length_val_worth u k) by exact W; clear W end; xr;
  rewrite ?andb_true_iff, ?Rle_bool_iff, ?scaled_within by easy; tauto.
Qed.
Lemma xyz_tol id d x1 y1 z1 x2 y2 z2 t :
  exists r, crs_approx_eq (GeocentricCrs id d) [Fin x1; Fin y1; Fin z1] [Fin x2; Fin y2; Fin z2]
              (xaxes_denormalize_tol (Fin t)) = Ret r /\
  (r = true <-> Rabs (x1 - x2) <= t /\ Rabs (y1 - y2) <= t /\ Rabs (z1 - z2) <= t).
Proof.
  eexists. split; [apply crs_approx_eq_all; reflexivity|].
  unfold all_within, xaxes_denormalize_tol. cbn [combine forallb fst snd]. xr.
  rewrite ?andb_true_iff, ?Rle_bool_iff. tauto.
Qed.

(** ** approx_eq *)
Lemma circle_within_diff a b t d : lon_sub (Fin a) (Fin b) = Fin d -> (Rabs d <= t <-> circle_within a b t).
Proof.
  unfold lon_sub. destruct (diff_to_spec b a) as (d' & E & H1 & H2 & H3). rewrite E.
  intros [= ->]. split.
  - intros H. destruct H2 as [k Hk]. exists d, (- k)%Z. split; [|easy]. rewrite opp_IZR. lra.
  - intros (d' & k & Ek & Hd). apply Rle_trans with (Rabs d'); [|easy]. apply H3.
    exists (- k)%Z. rewrite opp_IZR. lra.
Qed.
Lemma llh_approx l1 p1 h1 l2 p2 h2 tl tp th :
  llh_approx_eq (mkLLH (Fin l1) (Fin p1) (Fin h1)) (mkLLH (Fin l2) (Fin p2) (Fin h2))
     (mkGT (Fin tl) (Fin tp) (Fin th)) = true <->
  circle_within l1 l2 tl /\ Rabs (p1 - p2) <= tp /\ Rabs (h1 - h2) <= th.
Proof.
  unfold llh_approx_eq, lon_abs_diff_eq, abs_diff_eq. cbn [lon lat height gt_lon gt_lat gt_height].
  rewrite lon_sub_fin. xr. rewrite !andb_true_iff, !Rle_bool_iff.
  rewrite (circle_within_diff l1 l2 tl) by apply lon_sub_fin. tauto.
Qed.
Lemma xyz_approx x1 y1 z1 x2 y2 z2 t :
  xyz_approx_eq (mkXYZ (Fin x1) (Fin y1) (Fin z1)) (mkXYZ (Fin x2) (Fin y2) (Fin z2)) (Fin t) = true <->
  Rabs (x1 - x2) <= t /\ Rabs (y1 - y2) <= t /\ Rabs (z1 - z2) <= t.
Proof.
  unfold xyz_approx_eq, abs_diff_eq. cbn [x_ y_ z_]. xr. rewrite !andb_true_iff, !Rle_bool_iff. tauto.
Qed.
Lemma enh_approx e1 n1 h1 e2 n2 h2 t th :
  enh_approx_eq (mkENH (Fin e1) (Fin n1) (Fin h1)) (mkENH (Fin e2) (Fin n2) (Fin h2))
     (mkPT (Fin t) (Fin th)) = true <->
  Rabs (e1 - e2) <= t /\ Rabs (n1 - n2) <= t /\ Rabs (h1 - h2) <= th.
Proof.
  unfold enh_approx_eq, abs_diff_eq. cbn [easting northing eheight pt_horiz pt_height]. xr.
  rewrite !andb_true_iff, !Rle_bool_iff. tauto.
Qed.
Lemma circle_within_sym a b t : circle_within a b t -> circle_within b a t.
Proof.
  intros (d & k & E & H). exists (- d), (- k)%Z. rewrite opp_IZR, Rabs_Ropp. split; lra.
Qed.
Lemma circle_within_refl a t : 0 <= t -> circle_within a a t.
Proof. intros H. exists 0, 0%Z. rewrite Rabs_R0. split; lra. Qed.

Lemma approx_refl (l p h tl tp th : R) (q : R3) (t th' : R) :
  0 <= tl -> 0 <= tp -> 0 <= th -> 0 <= t -> 0 <= th' ->
  llh_approx_eq (mkLLH (Fin l) (Fin p) (Fin h)) (mkLLH (Fin l) (Fin p) (Fin h)) (mkGT (Fin tl) (Fin tp) (Fin th)) = true /\
  xyz_approx_eq (xyz q) (xyz q) (Fin t) = true /\
  enh_approx_eq (enh q) (enh q) (mkPT (Fin t) (Fin th')) = true.
Proof.
  intros. destruct q as [[x y] z]. unfold xyz, enh.
  rewrite llh_approx, xyz_approx, enh_approx. rewrite !Rminus_diag_eq, Rabs_R0 by easy.
  repeat split; try lra; now apply circle_within_refl.
Qed.
Lemma bool_eq_iff a b : (a = true <-> b = true) -> a = b.
Proof. destruct a, b; intuition congruence. Qed.
Lemma approx_sym (l1 p1 h1 l2 p2 h2 tl tp th : R) (q1 q2 : R3) (t th' : R) :
  llh_approx_eq (mkLLH (Fin l1) (Fin p1) (Fin h1)) (mkLLH (Fin l2) (Fin p2) (Fin h2)) (mkGT (Fin tl) (Fin tp) (Fin th)) =
  llh_approx_eq (mkLLH (Fin l2) (Fin p2) (Fin h2)) (mkLLH (Fin l1) (Fin p1) (Fin h1)) (mkGT (Fin tl) (Fin tp) (Fin th)) /\
  xyz_approx_eq (xyz q1) (xyz q2) (Fin t) = xyz_approx_eq (xyz q2) (xyz q1) (Fin t) /\
  enh_approx_eq (enh q1) (enh q2) (mkPT (Fin t) (Fin th')) = enh_approx_eq (enh q2) (enh q1) (mkPT (Fin t) (Fin th')).
Proof.
  destruct q1 as [[x1 y1] z1], q2 as [[x2 y2] z2]. unfold xyz, enh.
  split; [|split]; apply bool_eq_iff.
  - rewrite !llh_approx, (Rabs_minus_sym p1), (Rabs_minus_sym h1).
    split; intros (H & ? & ?); (split; [now apply circle_within_sym|easy]).
  - rewrite !xyz_approx, (Rabs_minus_sym x1), (Rabs_minus_sym y1), (Rabs_minus_sym z1). tauto.
  - rewrite !enh_approx, (Rabs_minus_sym x1), (Rabs_minus_sym y1), (Rabs_minus_sym z1). tauto.
Qed.

(** ** Distance *)
Lemma hypot3 x y z : Rhypot (Rhypot x y) z = sqrt (x * x + y * y + z * z).
Proof.
  unfold Rhypot at 1. f_equal. pose proof (Rhypot_sq x y). lra.
Qed.
Lemma xyz_dist p q : xyz_dist_to (xyz p) (xyz q) = Fin (edist p q).
Proof.
  destruct p as [[x1 y1] z1], q as [[x2 y2] z2]. unfold xyz_dist_to, xyz, edist. cbn [x_ y_ z_]. xr.
  now rewrite hypot3.
Qed.
Lemma enh_dist p q : enh_dist_to (enh p) (enh q) = Fin (edist p q).
Proof.
  destruct p as [[x1 y1] z1], q as [[x2 y2] z2]. unfold enh_dist_to, enh, edist.
  cbn [easting northing eheight]. xr. now rewrite hypot3.
Qed.
Lemma edist_ge_0 p q : 0 <= edist p q.
Proof. destruct p as [[x1 y1] z1], q as [[x2 y2] z2]. apply sqrt_pos. Qed.
Lemma edist_sym p q : edist p q = edist q p.
Proof. destruct p as [[x1 y1] z1], q as [[x2 y2] z2]. unfold edist. f_equal. ring. Qed.
Lemma edist_0 p q : edist p q = 0 <-> p = q.
Proof.
  destruct p as [[x1 y1] z1], q as [[x2 y2] z2]. unfold edist. split.
  - intros H. pose proof (Rle_0_sqr (x1 - x2)) as A. pose proof (Rle_0_sqr (y1 - y2)) as B.
    pose proof (Rle_0_sqr (z1 - z2)) as C. unfold Rsqr in A, B, C.
    apply sqrt_eq_0 in H; [|lra].
    assert (x1 - x2 = 0) by (apply Rsqr_0_uniq; unfold Rsqr; lra).
    assert (y1 - y2 = 0) by (apply Rsqr_0_uniq; unfold Rsqr; lra).
    assert (z1 - z2 = 0) by (apply Rsqr_0_uniq; unfold Rsqr; lra).
    repeat f_equal; lra.
  - intros [= -> -> ->]. rewrite !Rminus_diag_eq by easy. rewrite !Rmult_0_l, !Rplus_0_l. apply sqrt_0.
Qed.
Lemma ssq3 a b c : 0 <= a * a + b * b + c * c.
Proof.
  pose proof (Rle_0_sqr a) as A. pose proof (Rle_0_sqr b) as B. pose proof (Rle_0_sqr c) as C.
  unfold Rsqr in *. lra.
Qed.
Lemma cauchy3 a b c d e f :
  a * d + b * e + c * f <= sqrt (a * a + b * b + c * c) * sqrt (d * d + e * e + f * f).
Proof.
  rewrite <- sqrt_mult by apply ssq3.
  destruct (Rle_dec (a * d + b * e + c * f) 0) as [H|H].
  - eapply Rle_trans; [apply H|apply sqrt_pos].
  - rewrite <- (sqrt_square (a * d + b * e + c * f)) by lra. apply sqrt_le_1; [apply Rle_0_sqr|apply Rmult_le_pos; apply ssq3|].
    assert (0 <= (a * e - b * d) * (a * e - b * d) + (a * f - c * d) * (a * f - c * d)
                 + (b * f - c * e) * (b * f - c * e)) by apply ssq3. lra.
Qed.
Lemma edist_triangle p q r : edist p r <= edist p q + edist q r.
Proof.
  destruct p as [[x1 y1] z1], q as [[x2 y2] z2], r as [[x3 y3] z3]. unfold edist.
  set (a := x1 - x2). set (b := y1 - y2). set (c := z1 - z2).
  set (d := x2 - x3). set (e := y2 - y3). set (f := z2 - z3).
  replace (x1 - x3) with (a + d) by (unfold a, d; ring).
  replace (y1 - y3) with (b + e) by (unfold b, e; ring).
  replace (z1 - z3) with (c + f) by (unfold c, f; ring).
  clearbody a b c d e f.
  pose proof (cauchy3 a b c d e f) as C.
  pose proof (sqrt_sqrt _ (ssq3 a b c)) as E1. pose proof (sqrt_sqrt _ (ssq3 d e f)) as E2.
  pose proof (sqrt_pos (a * a + b * b + c * c)) as P1. pose proof (sqrt_pos (d * d + e * e + f * f)) as P2.
  set (S1 := sqrt (a * a + b * b + c * c)) in *. set (S2 := sqrt (d * d + e * e + f * f)) in *.
  rewrite <- (sqrt_square (S1 + S2)) by lra. apply sqrt_le_1; [apply ssq3|apply Rle_0_sqr|].
  replace ((S1 + S2) * (S1 + S2)) with (S1 * S1 + S2 * S2 + 2 * (S1 * S2)) by ring.
  rewrite E1, E2. lra.
Qed.
Lemma crs_dist_geocentric id d p q :
  let buf '(x, y, z) := [Fin x; Fin y; Fin z] in
  crs_dist (GeocentricCrs id d) (buf p) (buf q) = Ret (Ok (Fin (edist p q))).
Proof.
  destruct p as [[x1 y1] z1], q as [[x2 y2] z2]. cbv zeta. unfold crs_dist, rassert. cbn [length crs_dim xaxes_dim Nat.eqb].
  unfold xaxes_normalize. rewrite !index_0, !index_1, !index_2. cbn [obind]. rewrite !length_new_M.
  change (mkXYZ (Fin x1) (Fin y1) (Fin z1)) with (xyz (x1, y1, z1)).
  change (mkXYZ (Fin x2) (Fin y2) (Fin z2)) with (xyz (x2, y2, z2)). now rewrite xyz_dist.
Qed.
Lemma crs_dist_projected id d ax s a b e1 n1 h1 e2 n2 h2 :
  proj_reads ax a e1 n1 h1 -> proj_reads ax b e2 n2 h2 ->
  crs_dist (ProjectedCrs id d ax s) (map Fin a) (map Fin b) =
  Ret (Ok (Fin (edist (e1, n1, height_of h1) (e2, n2, height_of h2)))).
Proof.
  intros H1 H2. unfold crs_dist, rassert. rewrite !map_length.
  assert (La : length a = paxes_dim ax) by now destruct H1.
  assert (Lb : length b = paxes_dim ax) by now destruct H2.
  cbn [crs_dim]. rewrite La, Lb, Nat.eqb_refl.
  pose proof (proj_normalize _ _ _ _ _ [] H1) as N1. pose proof (proj_normalize _ _ _ _ _ [] H2) as N2.
  rewrite app_nil_r in N1, N2. rewrite N1, N2. cbn [obind].
  change (mkENH (Fin e1) (Fin n1) (Fin (height_of h1))) with (enh (e1, n1, height_of h1)).
  change (mkENH (Fin e2) (Fin n2) (Fin (height_of h2))) with (enh (e2, n2, height_of h2)).
  now rewrite enh_dist.
Qed.

(** Binary64 symmetry *)
Lemma Bminus_swap (x y : f64) :
  Bminus mode_NE y x = Bopp (Bminus mode_NE x y) \/ Bminus mode_NE y x = Bminus mode_NE x y.
Proof.
  assert (A : forall a b : f64, is_finite a = true -> is_finite b = true ->
     Rlt_bool (Rabs (rnd (B2R a - B2R b))) (bpow radix2 1024) = true ->
     B2R (Bminus mode_NE a b) = rnd (B2R a - B2R b) /\ is_finite (Bminus mode_NE a b) = true /\
     Bsign (Bminus mode_NE a b) = match Rcompare (B2R a - B2R b) 0 with
        Eq => Bsign a && negb (Bsign b) | Lt => true | Gt => false end).
  { intros a b Fa Fb H. pose proof (Bminus_correct 53 1024 _ _ mode_NE a b Fa Fb) as B.
    change (round radix2 (SpecFloat.fexp 53 1024) (round_mode mode_NE) (B2R a - B2R b))
      with (rnd (B2R a - B2R b)) in B. rewrite H in B. exact B. }
  destruct (is_finite x) eqn:Fx, (is_finite y) eqn:Fy.
  - assert (E : rnd (B2R y - B2R x) = - rnd (B2R x - B2R y)).
    { rewrite <- rnd_opp. f_equal. ring. }
    destruct (Rlt_bool (Rabs (rnd (B2R x - B2R y))) (bpow radix2 1024)) eqn:O.
    + destruct (A x y Fx Fy O) as (V1 & G1 & S1).
      destruct (A y x Fy Fx) as (V2 & G2 & S2). { now rewrite E, Rabs_Ropp. }
      destruct (Req_dec (B2R x - B2R y) 0) as [Z|NZ].
      * (* equal values *)
        destruct (Bool.bool_dec (Bsign (Bminus mode_NE y x)) (Bsign (Bminus mode_NE x y))) as [Es|Es].
        -- right. apply B2R_Bsign_inj; [easy|easy| |easy]. rewrite V1, V2, E.
           rewrite Z, rnd_0. ring.
        -- left. apply B2R_Bsign_inj; [easy|now rewrite is_finite_Bopp| |].
           ++ rewrite B2R_Bopp, V1, V2, E. easy.
           ++ rewrite Bsign_Bopp by (now apply finite_not_nan).
              destruct (Bsign (Bminus mode_NE y x)), (Bsign (Bminus mode_NE x y)); easy.
      * left. apply B2R_Bsign_inj; [easy|now rewrite is_finite_Bopp| |].
        -- rewrite B2R_Bopp, V1, V2, E. easy.
        -- rewrite Bsign_Bopp by (now apply finite_not_nan). rewrite S1, S2.
           destruct (Rcompare_spec (B2R x - B2R y) 0), (Rcompare_spec (B2R y - B2R x) 0); try lra; easy.
    + pose proof (Bminus_correct 53 1024 _ _ mode_NE x y Fx Fy) as B1.
      pose proof (Bminus_correct 53 1024 _ _ mode_NE y x Fy Fx) as B2.
      change (round radix2 (SpecFloat.fexp 53 1024) (round_mode mode_NE) (B2R x - B2R y))
        with (rnd (B2R x - B2R y)) in B1.
      change (round radix2 (SpecFloat.fexp 53 1024) (round_mode mode_NE) (B2R y - B2R x))
        with (rnd (B2R y - B2R x)) in B2.
      rewrite O in B1. rewrite E, Rabs_Ropp, O in B2. destruct B1 as [B1 S1], B2 as [B2 S2].
      left. apply B2SF_inj. rewrite B2, S2. unfold binary_overflow in *. cbn in B1 |- *.
      destruct (Bminus mode_NE x y); try discriminate B1. cbn in *. injection B1 as ->.
      rewrite S1. now rewrite negb_involutive.
  - destruct x, y as [| [] | |]; try discriminate; cbn; auto.
  - destruct y, x as [| [] | |]; try discriminate; cbn; auto.
  - destruct x as [| [] | |], y as [| [] | |]; try discriminate; cbn; auto.
Qed.

Definition even_hypot (lm : libm) : Prop := forall x y : f64,
  lm_hypot lm (Bopp x) y = lm_hypot lm x y /\ lm_hypot lm x (Bopp y) = lm_hypot lm x y.
Lemma hypot_swap lm x1 x2 y1 y2 : even_hypot lm ->
  lm_hypot lm (Bminus mode_NE x2 x1) (Bminus mode_NE y2 y1) =
  lm_hypot lm (Bminus mode_NE x1 x2) (Bminus mode_NE y1 y2).
Proof.
  intros E. destruct (Bminus_swap x1 x2) as [-> | ->], (Bminus_swap y1 y2) as [-> | ->];
  rewrite ?(proj1 (E _ _)), ?(proj2 (E _ _)); easy.
Qed.
Lemma hypot_swap_r lm h z1 z2 : even_hypot lm ->
  lm_hypot lm h (Bminus mode_NE z2 z1) = lm_hypot lm h (Bminus mode_NE z1 z2).
Proof. intros E. destruct (Bminus_swap z1 z2) as [-> | ->]; [apply E|easy]. Qed.
Lemma dist_symmetric_f64 lm : even_hypot lm ->
  (forall p q : XYZ f64, xyz_dist_to (ops := F64ops lm) p q = xyz_dist_to (ops := F64ops lm) q p) /\
  (forall p q : ENH f64, enh_dist_to (ops := F64ops lm) p q = enh_dist_to (ops := F64ops lm) q p).
Proof.
  intros E. unfold xyz_dist_to, enh_dist_to. cbn [fhypot fsub F64ops].
  split; intros [a b c] [d e f]; cbn [x_ y_ z_ easting northing eheight];
    now rewrite (hypot_swap lm d a e b E), (hypot_swap_r lm _ f c E).
Qed.
Lemma Bminus_self (x : f64) : is_finite x = true -> Bminus mode_NE x x = B754_zero false.
Proof.
  intros F. pose proof (Bminus_correct 53 1024 _ _ mode_NE x x F F) as B.
  replace (B2R x - B2R x) with 0 in B by ring.
  change (round radix2 (SpecFloat.fexp 53 1024) (round_mode mode_NE) 0) with (rnd 0) in B.
  rewrite rnd_0, Rabs_R0, Rlt_bool_true in B by apply bpow_gt_0.
  destruct B as (V & G & S). rewrite Rcompare_Eq in S by easy.
  destruct (B2R_0_zero _ G V) as [s Es]. rewrite Es in *. cbn in S. f_equal. rewrite S.
  now destruct (Bsign x).
Qed.
Lemma dist_self_f64 lm : lm_hypot lm (B754_zero false) (B754_zero false) = B754_zero false ->
  (forall p : XYZ f64, is_finite (x_ p) = true -> is_finite (y_ p) = true -> is_finite (z_ p) = true ->
     xyz_dist_to (ops := F64ops lm) p p = B754_zero false) /\
  (forall p : ENH f64, is_finite (easting p) = true -> is_finite (northing p) = true -> is_finite (eheight p) = true ->
     enh_dist_to (ops := F64ops lm) p p = B754_zero false).
Proof.
  intros E. unfold xyz_dist_to, enh_dist_to. cbn [fhypot fsub F64ops].
  split; intros p H1 H2 H3; rewrite !Bminus_self by easy; now rewrite !E.
Qed.

(** ** Values of the tolerances; findings *)
Lemma gt_values : gt_tiny = mkGT (Fin (/ 10 ^ 12)) (Fin (/ 10 ^ 12)) (Fin (/ 10 ^ 4)) /\
  gt_small = mkGT (Fin (/ 10 ^ 9)) (Fin (/ 10 ^ 9)) (Fin (/ 10 ^ 4)).
Proof.
  unfold gt_tiny, gt_small, ANGLE_TINY, ANGLE_SMALL, LENGTH_TINY. rewrite !angle_new_RAD, ?length_new_M. xr.
  unfold Rlit. simpl (IZR (10 ^ _)). split; repeat f_equal; lra.
Qed.
Lemma cartesian_tol_values : ct_tiny = Fin (/ 10 ^ 4) /\ ct_small = Fin (/ 10 ^ 3) /\
  pt_tiny = mkPT (Fin (/ 10 ^ 4)) (Fin (/ 10 ^ 4)) /\ pt_small = mkPT (Fin (/ 10 ^ 3)) (Fin (/ 10 ^ 3)).
Proof.
  unfold pt_tiny, pt_small, ct_tiny, ct_small, LENGTH_TINY, LENGTH_SMALL. rewrite !length_new_M. xr.
  unfold Rlit. simpl (IZR (10 ^ _)). repeat split; repeat f_equal; lra.
Qed.
