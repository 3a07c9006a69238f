(** binary64: the loop of the inverse transverse Mercator projection; UTM. *)
From Coq Require Import String Reals Lra Lia ZArith Bool Psatz List.
From Flocq Require Import Core IEEE754.BinarySingleNaN.
From Verif.Num Require Import FOps RFun XR XRLemmas F64.
From Verif.Model Require Import Fp Quantities Cs Ellipsoid Geodesics Projections Crs.
From Verif.Spec Require Import Angles Axes Shape Maps Krueger Libm.
From Verif.Proofs Require Import AnglesX AxesX EllX ProjX.
Import ListNotations.

Notation nan := (@B754_nan 53 1024).
Section F.
Context (lm : libm).
#[local] Instance ops : FOps f64 := F64ops lm.
Lemma add_nan_l x : fadd nan x = nan. Proof. destruct x; reflexivity. Qed.
Lemma add_nan_r x : fadd x nan = nan. Proof. destruct x; reflexivity. Qed.
Lemma sub_nan_l x : fsub nan x = nan. Proof. destruct x; reflexivity. Qed.
Lemma sub_nan_r x : fsub x nan = nan. Proof. destruct x; reflexivity. Qed.
Lemma mul_nan_l x : fmul nan x = nan. Proof. destruct x; reflexivity. Qed.
Lemma mul_nan_r x : fmul x nan = nan. Proof. destruct x; reflexivity. Qed.
Lemma div_nan_l x : fdiv nan x = nan. Proof. destruct x; reflexivity. Qed.
Context (Hn : nan_through lm).
Lemma nf : fsin nan = nan /\ fcos nan = nan /\ ftan nan = nan /\ fasin nan = nan /\ fcosh nan = nan /\ ftanh nan = nan /\ fasinh nan = nan /\ fatanh nan = nan.
Proof. cbn. unfold nan_through in Hn. rewrite Forall_forall in Hn. repeat split; apply Hn; cbn; tauto. Qed.
Lemma loop_nan fuel e q : tm_loop fuel e nan q = Diverge.
Proof.
  revert q; induction fuel as [|f IH]; intros q; [reflexivity|]. cbn [tm_loop]. unfold tm_iter_fn. rewrite add_nan_l, sub_nan_l.
  cbn [fabs ops F64ops Babs]. apply IH.
Qed.
Lemma unproj_nan_xi fuel p x y h : let eta := fdiv (fsub x (tm_fe p)) (length_scale (tm_k0 p) (tm_B p)) in
  let xi := fdiv (fadd (fsub y (tm_fn p)) (length_scale (tm_k0 p) (tm_M0 p))) (length_scale (tm_k0 p) (tm_B p)) in
  fsin (fsub xi (tm_xi_sum (tm_h_p p) xi eta)) = nan -> tm_unproj fuel p (mkENH x y h) = Diverge.
Proof.
  intros eta xi N. destruct nf as (S & C & T & A & CH & TH & AH & ATH). unfold tm_unproj. cbn [easting northing eheight]. fold eta xi.
  rewrite N, div_nan_l, A, T, AH, loop_nan. reflexivity.
Qed.
Lemma unproj_nan fuel p x y h : x = nan \/ y = nan -> tm_unproj fuel p (mkENH x y h) = Diverge.
Proof.
  intros H. destruct nf as (S & C & T & A & CH & TH & AH & ATH). apply unproj_nan_xi.
  set (eta := fdiv (fsub x _) _). set (xi := fdiv (fadd _ _) _).
  destruct (tm_h_p p) as [[[h1 h2] h3] h4]. unfold tm_xi_sum, fsum. cbn [fold_left]. destruct H as [H|H].
  - assert (E : eta = nan) by (unfold eta; rewrite H, sub_nan_l; apply div_nan_l). rewrite E.
    rewrite !mul_nan_r, CH, !mul_nan_r, !add_nan_r, sub_nan_r. exact S.
  - assert (E : xi = nan) by (unfold xi; rewrite H, sub_nan_l, add_nan_l; apply div_nan_l). rewrite E, sub_nan_l. exact S.
Qed.

(** a non-finite term makes the sum non-finite *)
Definition nonfin (x : f64) : Prop := is_finite x = false.
Lemma nonfin_cases (x : f64) : nonfin x -> x = nan \/ exists s, x = B754_infinity s.
Proof. destruct x; try discriminate; eauto. Qed.
Lemma add_nonfin_l x y : nonfin x -> nonfin (fadd x y).
Proof. intros H. destruct (nonfin_cases x H) as [->|[[|] ->]], y as [s|[|]| |s m e B]; reflexivity. Qed.
Lemma add_nonfin_r x y : nonfin y -> nonfin (fadd x y).
Proof. intros H. destruct (nonfin_cases y H) as [->|[[|] ->]], x as [s|[|]| |s m e B]; reflexivity. Qed.
Lemma sub_nonfin_r x y : nonfin y -> nonfin (fsub x y).
Proof. intros H. destruct (nonfin_cases y H) as [->|[[|] ->]], x as [s|[|]| |s m e B]; reflexivity. Qed.
Lemma mul_inf x s : nonfin (fmul x (B754_infinity s)).
Proof. destruct s, x as [s|[|]| |[|] m e B]; reflexivity. Qed.
Context (Hi : sin_of_inf lm).
Lemma sin_nonfin x : nonfin x -> fsin x = nan.
Proof. intros H. destruct (nonfin_cases x H) as [->|[s ->]]; [apply nf|apply Hi]. Qed.
Lemma unproj_far fuel p x y h :
  fcosh (fmul (fofZ 2) (fdiv (fsub x (tm_fe p)) (length_scale (tm_k0 p) (tm_B p)))) = B754_infinity false ->
  tm_unproj fuel p (mkENH x y h) = Diverge.
Proof.
  intros H. apply unproj_nan_xi. apply sin_nonfin. apply sub_nonfin_r.
  destruct (tm_h_p p) as [[[h1 h2] h3] h4]. unfold tm_xi_sum, fsum. cbn [fold_left]. rewrite H.
  do 3 apply add_nonfin_l. apply add_nonfin_r. apply mul_inf.
Qed.
Context (Hc : cosh_overflows lm).
Lemma utm_far fuel zone y h : 
  tm_unproj fuel (tm_utm_north GRS80 zone) (mkENH (fofZ 10000000000) y h) = Diverge.
Proof.
  apply unproj_far. apply Hc. vm_compute. reflexivity.
Qed.
End F.
