(** binary64: the distance from a point to itself. *)
From Coq Require Import Reals Lra Lia ZArith Bool Psatz List.
From Flocq Require Import Core IEEE754.BinarySingleNaN.
From Verif.Num Require Import FOps F64.
From Verif.Model Require Import Fp Quantities Cs Ellipsoid Geodesics.
From Verif.Spec Require Import Libm.
Import ListNotations.

Notation nan := (B754_nan : f64).
Definition z0 : f64 := B754_zero false.
Section F.
Context (lm : libm).
#[local] Instance ops : FOps f64 := F64ops lm.
Context (Hn : nan_through lm) (Hz : zero_values lm).
Lemma sin_nan : fsin nan = nan. Proof. cbn. unfold nan_through in Hn. rewrite Forall_forall in Hn. apply Hn; cbn; tauto. Qed.
Lemma an_l x : fadd nan x = nan. Proof. destruct x; reflexivity. Qed.
Lemma an_r x : fadd x nan = nan. Proof. destruct x; reflexivity. Qed.
Lemma sn_l x : fsub nan x = nan. Proof. destruct x; reflexivity. Qed.
Lemma sn_r x : fsub x nan = nan. Proof. destruct x; reflexivity. Qed.
Lemma mn_l x : fmul nan x = nan. Proof. destruct x; reflexivity. Qed.
Lemma mn_r x : fmul x nan = nan. Proof. destruct x; reflexivity. Qed.
Lemma dn_l x : fdiv nan x = nan. Proof. destruct x; reflexivity. Qed.
Lemma dn_r x : fdiv x nan = nan. Proof. destruct x; reflexivity. Qed.
(** a zero or NaN *)
Definition zn (x : f64) : Prop := x = nan \/ exists s, x = B754_zero s.
Definition zp (x : f64) : Prop := x = nan \/ x = z0.
Lemma zn_mul_r x : zn (fmul x z0). Proof. destruct x; cbn; unfold zn; eauto. Qed.
Lemma zn_sq x : zn x -> zp (fsq x).
Proof. intros [-> | [s ->]]; [left; reflexivity|]. right. now destruct s. Qed.
Lemma zp_add x y : zp x -> zp y -> zp (fadd x y).
Proof. intros [-> | ->] [-> | ->]; cbn; unfold zp; tauto. Qed.
Lemma zp_sqrt x : zp x -> zp (fsqrt x).
Proof. intros [-> | ->]; cbn; unfold zp; tauto. Qed.
Lemma zn_div x y : zn x -> zp y -> fdiv x y = nan.
Proof. intros [-> | [s ->]] [-> | ->]; reflexivity. Qed.
Lemma mul_comm x y : fmul x y = fmul y x.
Proof.
  cbn. destruct x as [sx|sx| |sx mx ex Bx], y as [sy|sy| |sy my ey By]; cbn; try reflexivity; try (f_equal; apply xorb_comm).
  apply B2SF_inj. rewrite !B2SF_SF2B. rewrite (xorb_comm sx sy), (Pos.mul_comm mx my), (Z.add_comm ex ey). reflexivity.
Qed.
Lemma sub_self x : zn (fsub x x).
Proof.
  cbn. destruct (is_finite x) eqn:F.
  - pose proof (Bminus_correct 53 1024 Hprec64 Hemax64 mode_NE x x F F) as C.
    replace (B2R x - B2R x)%R with 0%R in C by ring. rewrite round_0 in C by typeclasses eauto. rewrite Rabs_R0, Rlt_bool_true in C by apply bpow_gt_0.
    destruct C as (C1 & C2 & _). destruct (Bminus mode_NE x x) as [s|s| |s m e B]; cbn in C2; try discriminate; [right; eauto|].
    exfalso. cbn in C1. apply eq_0_F2R in C1. destruct s; discriminate C1.
  - destruct x as [s|s| |s m e B]; try discriminate; [|left; reflexivity]. destruct s; left; reflexivity.
Qed.
Lemma mul_one x : fmul x (fofZ 1) = x.
Proof.
  cbn. change (f64_ofZ 1) with (@Bone 53 1024 Hprec64 Hemax64). destruct (is_finite x) eqn:F.
  - pose proof (Bmult_correct 53 1024 Hprec64 Hemax64 mode_NE x (@Bone 53 1024 Hprec64 Hemax64)) as C. rewrite Bone_correct in C. rewrite Rmult_1_r in C.
    rewrite round_generic in C by (try typeclasses eauto; apply generic_format_B2R). rewrite Rlt_bool_true in C by apply abs_B2R_lt_emax.
    destruct C as (C1 & C2 & C3). rewrite F, is_finite_Bone in C2. change (true && true) with true in C2.
    assert (NX : is_nan x = false) by (destruct x; try discriminate; reflexivity).
    set (y := Bmult mode_NE x (@Bone 53 1024 Hprec64 Hemax64)) in *.
    assert (NY : is_nan y = false) by (destruct y; try discriminate; reflexivity). specialize (C3 NY). rewrite Bsign_Bone, xorb_false_r in C3.
    apply B2R_Bsign_inj; assumption.
  - destruct x as [s|s| |s m e B]; try discriminate; [|reflexivity]. now destruct s.
Qed.
(** not negative *)
Definition nneg (x : f64) : Prop := is_nan x = true \/ Bsign x = false.
Lemma nneg_sq x : nneg (fmul x x).
Proof.
  cbn. destruct (is_nan (Bmult mode_NE x x)) eqn:N; [left; exact N|right].
  pose proof (Bmult_correct 53 1024 Hprec64 Hemax64 mode_NE x x) as C. destruct (Rlt_bool _ _).
  - destruct C as (_ & _ & S). specialize (S N). rewrite S. now destruct (Bsign x).
  - assert (C' : B2SF (Bmult mode_NE x x) = SpecFloat.S754_infinity false). { rewrite C. unfold binary_overflow. cbn. now destruct (Bsign x). } 
    destruct (Bmult mode_NE x x); try discriminate. cbn in C'. injection C'; intros ->. reflexivity.
Qed.
Lemma nneg_add x y : nneg x -> nneg y -> nneg (fadd x y).
Proof.
  intros [Nx|Sx] [Ny|Sy]; try (left; (destruct x; try discriminate Nx || destruct y; try discriminate Ny); cbn; reflexivity).
  cbn. destruct (is_finite x) eqn:Fx, (is_finite y) eqn:Fy.
  - pose proof (Bplus_correct 53 1024 Hprec64 Hemax64 mode_NE x y Fx Fy) as C.
    assert (PX : (0 <= B2R x)%R) by (destruct x as [s|s| |s m e B]; cbn; try lra; cbn in Sx; rewrite Sx; apply F2R_ge_0; cbn; lia).
    assert (PY : (0 <= B2R y)%R) by (destruct y as [s|s| |s m e B]; cbn; try lra; cbn in Sy; rewrite Sy; apply F2R_ge_0; cbn; lia).
    destruct (Rlt_bool _ _).
    + destruct C as (_ & _ & S). right. rewrite S. destruct (Rcompare_spec (B2R x + B2R y) 0); [lra| |reflexivity]. rewrite Sx, Sy. reflexivity.
    + destruct C as (C & _). right. rewrite Sx in C. destruct (Bplus mode_NE x y); try discriminate. cbn in C. injection C; intros ->. reflexivity.
  - destruct y as [s|s| |s m e B]; try discriminate; destruct x as [s'|s'| |s' m' e' B']; try discriminate; cbn in *; unfold nneg; cbn; tauto.
  - destruct x as [s|s| |s m e B]; try discriminate; destruct y as [s'|s'| |s' m' e' B']; try discriminate; cbn in *; unfold nneg; cbn; tauto.
  - destruct x as [s|s| |s m e B]; try discriminate; destruct y as [s'|s'| |s' m' e' B']; try discriminate; cbn in *; subst; unfold nneg; cbn; tauto.
Qed.
Lemma atan2_zp x c : zp x -> nneg c -> zp (fatan2 x c).
Proof.
  intros [-> | ->] Hc; cbn; destruct Hz as (_ & _ & A & B & C); [left; apply C|].
  destruct (is_nan c) eqn:N; [left; destruct c; try discriminate; apply B|]. right. apply A; [exact N|]. destruct Hc as [H|H]; [congruence|exact H].
Qed.
Lemma sin_zp x : zp x -> zp (fsin x).
Proof. intros [-> | ->]; [left; apply sin_nan|right; apply Hz]. Qed.
Lemma lon_self l : is_finite l = true -> lon_sub l l = z0.
Proof.
  intros F. unfold lon_sub, diff_to.
  assert (Z : fsub l l = z0).
  { cbn. pose proof (Bminus_correct 53 1024 Hprec64 Hemax64 mode_NE l l F F) as C.
    replace (B2R l - B2R l)%R with 0%R in C by ring. rewrite round_0 in C by typeclasses eauto. rewrite Rabs_R0, Rlt_bool_true in C by apply bpow_gt_0.
    destruct C as (C1 & C2 & C3). rewrite Rcompare_Eq in C3 by reflexivity.
    destruct (Bminus mode_NE l l) as [s|s| |s m e B]; cbn in C2; try discriminate; [|exfalso; cbn in C1; apply eq_0_F2R in C1; destruct s; discriminate C1].
    cbn in C3. rewrite C3. now destruct (Bsign l). }
  rewrite Z. vm_compute. reflexivity.
Qed.
(** Vincenty *)
Lemma v_step (f s c m : f64) : vi_lambda (vincenty_inverse_step f s c s c z0 z0 m) = nan.
Proof.
  unfold vincenty_inverse_step. cbv zeta. assert (S0 : fsin z0 = z0) by apply Hz. assert (C0 : fcos z0 = fofZ 1) by apply Hz. rewrite S0, C0, !mul_one.
  rewrite (mul_comm s c). pose proof (sub_self (fmul c s)) as D. set (d := fsub (fmul c s) (fmul c s)) in *.
  set (ss := fadd (fsq (fmul c z0)) (fsq d)). assert (Hs : zp ss) by (apply zp_add; apply zn_sq; [apply zn_mul_r|exact D]).
  set (ci := fadd (fmul s s) (fmul c c)). assert (Hc : nneg ci) by (apply nneg_add; apply nneg_sq).
  pose proof (sin_zp _ (atan2_zp _ _ (zp_sqrt _ Hs) Hc)) as Z. set (sg := fatan2 (fsqrt ss) ci) in *.
  rewrite (zn_div _ _ (zn_mul_r (fmul c c)) Z).
  assert (Q : fsub (fofZ 1) (fsq nan) = nan) by reflexivity. rewrite Q. change (feq nan (fofZ 0)) with false. cbn iota. cbn [vi_lambda].
  rewrite ?mn_r, ?mn_l, ?an_l. reflexivity.
Qed.
Lemma v_nan (f s1 c1 s2 c2 L m : f64) : vi_lambda (vincenty_inverse_step f s1 c1 s2 c2 L nan m) = nan.
Proof.
  unfold vincenty_inverse_step. cbv zeta. rewrite sin_nan, !mn_r, dn_l.
  assert (Q : fsub (fofZ 1) (fsq nan) = nan) by reflexivity. rewrite Q. change (feq nan (fofZ 0)) with false. cbn iota. cbn [vi_lambda].
  rewrite ?mn_r, ?mn_l, ?an_l. reflexivity.
Qed.
Lemma v_loop_nan n (f s1 c1 s2 c2 L m : f64) : vincenty_inverse_loop n f s1 c1 s2 c2 L nan m = Err tt.
Proof. revert m. induction n as [|n IH]; intros m; [reflexivity|]. cbn [vincenty_inverse_loop]. rewrite v_nan. apply IH. Qed.
Lemma v_self (E : Ellipsoid f64) (l p : f64) : is_finite l = true -> vincenty_inverse E (l, p) (l, p) = Err tt.
Proof.
  intros F. unfold vincenty_inverse. cbv zeta. rewrite lon_self by exact F. change MAX_ITERATIONS with (S 29). generalize 29%nat. intros n. cbn [vincenty_inverse_loop]. rewrite v_step.
  change (flt (fabs (fsub nan z0)) (flit 1 12)) with false. cbn iota. now rewrite v_loop_nan.
Qed.
(** Rapp *)
Lemma r_step (E : Ellipsoid f64) (be : f64) (st : rinv_state f64) : ri_lambda st = z0 -> ri_lambda (rapp_inverse_step E be be z0 st) = nan.
Proof.
  intros HL. unfold rapp_inverse_step. cbv zeta. rewrite HL. assert (S0 : fsin z0 = z0) by apply Hz. assert (C0 : fcos z0 = fofZ 1) by apply Hz. rewrite S0, C0, !mul_one.
  set (s := fsin be). set (c := fcos be). pose proof (sub_self (fmul s c)) as D. set (d := fsub (fmul s c) (fmul s c)) in *.
  set (ss := fadd (fsq (fmul z0 c)) (fsq d)). assert (Hs : zp ss) by (apply zp_add; apply zn_sq; [rewrite mul_comm; apply zn_mul_r|exact D]).
  rewrite (zn_div _ _ (zn_mul_r (fmul c c)) (zp_sqrt _ Hs)).
  assert (Q : fsub (fofZ 1) (fsq nan) = nan) by reflexivity. rewrite Q. change (feq nan (fofZ 0)) with false. cbn iota.
  destruct (rapp_axs E) as [[[x0 x2] x4] x6]. cbn [ri_lambda]. rewrite ?mn_r, ?mn_l, ?an_r. reflexivity.
Qed.
Lemma r_nan (E : Ellipsoid f64) (be L : f64) (st : rinv_state f64) : ri_lambda st = nan -> ri_lambda (rapp_inverse_step E be be L st) = nan.
Proof.
  intros HL. unfold rapp_inverse_step. cbv zeta. rewrite HL, sin_nan, !mn_r, dn_l.
  assert (Q : fsub (fofZ 1) (fsq nan) = nan) by reflexivity. rewrite Q. change (feq nan (fofZ 0)) with false. cbn iota.
  destruct (rapp_axs E) as [[[x0 x2] x4] x6]. cbn [ri_lambda]. rewrite ?mn_r, ?mn_l, ?an_r. reflexivity.
Qed.
Lemma r_loop_nan n (E : Ellipsoid f64) (be L : f64) (st : rinv_state f64) : ri_lambda st = nan -> rapp_inverse_loop n E be be L st = Err tt.
Proof.
  revert st. induction n as [|n IH]; intros st H; [reflexivity|]. cbn [rapp_inverse_loop]. cbv zeta. pose proof (r_nan E be L st H) as N. rewrite N. rewrite sn_l. 
  change (flt (fabs nan) (flit 5 15)) with false. cbn iota. now apply IH.
Qed.
Lemma r_self (E : Ellipsoid f64) (l p : f64) : is_finite l = true -> rapp_inverse E (l, p) (l, p) = Err tt.
Proof.
  intros F. unfold rapp_inverse. cbv zeta. rewrite lon_self by exact F. change MAX_ITERATIONS with (S 29). generalize 29%nat. intros n. cbn [rapp_inverse_loop]. cbv zeta.
  match goal with |- context [rapp_inverse_step E ?be ?be z0 ?st] => pose proof (r_step E be st eq_refl) as N; set (st' := rapp_inverse_step E be be z0 st) in * end.
  rewrite N. rewrite sn_l. change (flt (fabs nan) (flit 5 15)) with false. cbn iota. rewrite r_loop_nan by exact N. reflexivity.
Qed.
End F.
