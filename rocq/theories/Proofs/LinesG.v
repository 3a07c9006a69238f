(** Proofs on the structure of line strings and curves, in any arithmetic. *)
From Coq Require Import List Arith Lia Bool.
From Verif.Num Require Import FOps.
From Verif.Model Require Import Fp Quantities Cs Ellipsoid Geodesics Projections Crs Geometry.
From Verif.Spec Require Import Lines.
Import ListNotations.

Section G.
Context {F : Type} {ops : FOps F}.

(** ** Slices of concatenations *)
Lemma concat_length d (pts : list (list F)) : Forall (fun p => List.length p = d) pts ->
  List.length (concat pts) = List.length pts * d.
Proof. induction 1; cbn; [easy|]. rewrite app_length, IHForall, H. lia. Qed.
Lemma skipn_concat d (pts : list (list F)) i : Forall (fun p => List.length p = d) pts ->
  skipn (i * d) (concat pts) = concat (skipn i pts).
Proof.
  revert pts; induction i as [|i IH]; intros pts H; [easy|].
  destruct H as [|p pts Hp H]; [now rewrite !skipn_nil|].
  cbn [concat]. replace (S i * d) with (List.length p + i * d) by lia.
  rewrite skipn_app, skipn_all2 by lia.
  replace (List.length p + i * d - List.length p) with (i * d) by lia. now apply IH.
Qed.
Lemma nth_error_skipn {A} (l : list A) i p : nth_error l i = Some p -> exists t, skipn i l = p :: t.
Proof. revert l; induction i; intros [|a l]; cbn; try easy. - intros [= ->]; eauto. - apply IHi. Qed.
Lemma nth_pos_concat d (pts : list (list F)) i p : Forall (fun p => List.length p = d) pts ->
  nth_error pts i = Some p -> nth_pos d (concat pts) i = Ret p.
Proof.
  intros H E. unfold nth_pos, slice.
  assert (L : i < List.length pts) by (apply nth_error_Some; now rewrite E).
  assert (B : Nat.leb (i * d) ((i + 1) * d) && Nat.leb ((i + 1) * d) (List.length (concat pts)) = true).
  { rewrite (concat_length d) by easy. apply andb_true_intro; split; apply Nat.leb_le; nia. }
  rewrite B, (skipn_concat d) by easy.
  destruct (nth_error_skipn _ _ _ E) as [t ->]. cbn [concat].
  replace ((i + 1) * d - i * d) with d by lia.
  assert (Lp : List.length p = d).
  { rewrite Forall_forall in H. apply H. eapply nth_error_In; eauto. }
  rewrite firstn_app, <- Lp, firstn_all, Nat.sub_diag. cbn. now rewrite app_nil_r.
Qed.
Lemma n_pos_concat d (pts : list (list F)) : d <> 0 -> Forall (fun p => List.length p = d) pts ->
  n_pos d (concat pts) = List.length pts.
Proof. intros Z H. unfold n_pos. rewrite (concat_length d) by easy. now apply Nat.div_mul. Qed.

(** ** The dimension and the distance of a CRS *)
Lemma crs_dim_23 (c : Crs F) : crs_dim c = 2 \/ crs_dim c = 3.
Proof. destruct c as [id d|id d ax|id d ax s]; [now right| |]; destruct ax; cbn; auto. Qed.
Lemma crs_dim_nz (c : Crs F) : crs_dim c <> 0.
Proof. destruct (crs_dim_23 c); lia. Qed.

Lemma len2 (l : list F) : List.length l = 2 -> exists a b, l = [a; b].
Proof. destruct l as [|a [|b [|]]]; try easy; eauto. Qed.
Lemma len3 (l : list F) : List.length l = 3 -> exists a b c, l = [a; b; c].
Proof. destruct l as [|a [|b [|c [|]]]]; try easy; eauto. Qed.

Lemma crs_dist_total (c : Crs F) a b :
  (List.length a = crs_dim c -> List.length b = crs_dim c -> exists r, crs_dist c a b = Ret r) /\
  (~ (List.length a = crs_dim c /\ List.length b = crs_dim c) -> crs_dist c a b = Panic).
Proof.
  split.
  - intros A B. unfold crs_dist, rassert. rewrite A, B, Nat.eqb_refl.
    destruct c as [id d|id d ax|id d ax s]; [|destruct ax|destruct ax];
    cbn [crs_dim xaxes_dim gaxes_dim paxes_dim] in A, B |- *;
    (destruct (len2 _ A) as (? & ? & ->) + destruct (len3 _ A) as (? & ? & ? & ->));
    (destruct (len2 _ B) as (? & ? & ->) + destruct (len3 _ B) as (? & ? & ? & ->));
    cbn [obind index nth_error xaxes_normalize gaxes_normalize paxes_normalize Nat.eqb solve_inverse];
    eexists; reflexivity.
  - intros H. unfold crs_dist, rassert.
    destruct (Nat.eqb_spec (List.length a) (crs_dim c)); [|easy].
    destruct (Nat.eqb_spec (List.length b) (crs_dim c)); [|easy]. now destruct H.
Qed.
Lemma crs_dist_dims (c : Crs F) a b r : crs_dist c a b = Ret r ->
  List.length a = crs_dim c /\ List.length b = crs_dim c.
Proof.
  intros H. destruct (Nat.eq_dec (List.length a) (crs_dim c)); [|].
  - destruct (Nat.eq_dec (List.length b) (crs_dim c)); [easy|].
    rewrite (proj2 (crs_dist_total c a b)) in H; [easy|tauto].
  - rewrite (proj2 (crs_dist_total c a b)) in H; [easy|tauto].
Qed.

(** ** The builder *)
Definition lb_inv (crs : Crs F) (pts : list (list F)) (b : LineStringBuilder F) : Prop :=
  lb_crs b = crs /\ lb_coord_dim b = crs_dim crs /\ lb_pos b = concat pts /\
  Forall (fun p => List.length p = crs_dim crs) pts /\ 2 <= List.length pts /\
  measured crs pts (lb_len b).

Lemma measured_length (crs : Crs F) pts ds : measured crs pts ds ->
  List.length pts = S (List.length ds).
Proof. induction 1; cbn in *; lia. Qed.
Lemma measured_snoc (crs : Crs F) pts x ds p d : measured crs (pts ++ [x]) ds ->
  crs_dist crs x p = Ret (Ok d) -> measured crs ((pts ++ [x]) ++ [p]) (ds ++ [d]).
Proof.
  revert ds; induction pts as [|a pts IH]; intros ds H D; cbn in *.
  - inversion H; subst. cbn. constructor; [easy|constructor].
  - destruct pts as [|b pts]; cbn in *.
    + inversion H; subst. cbn. constructor; [easy|]. now apply IH.
    + inversion H; subst. cbn. constructor; [easy|]. now apply IH.
Qed.

Lemma with_line_spec (crs : Crs F) p q b : lsb_with_line crs p q = Ret (Ok b) ->
  lb_inv crs [p; q] b.
Proof.
  unfold lsb_with_line. destruct (crs_dist crs p q) as [r| |] eqn:D; cbn [obind]; try easy.
  destruct (crs_dist_dims _ _ _ _ D) as [Lp Lq]. pose proof (crs_dim_nz crs) as Z.
  destruct r as [d|]; [|easy]. unfold lsb_new, rassert.
  destruct (Nat.eqb_spec (List.length (p ++ q) mod crs_dim crs) 0); [|easy].
  destruct (Nat.leb _ _); [|easy]. destruct (Nat.eqb _ _); [|easy].
  intros [= <-]. repeat split; cbn; auto.
  - now rewrite app_nil_r.
  - constructor; [easy|constructor].
Qed.
Lemma with_line_total (crs : Crs F) p q :
  (List.length p = crs_dim crs -> List.length q = crs_dim crs ->
   exists r, crs_dist crs p q = Ret r /\
   match r with
   | Ok _ => exists b, lsb_with_line crs p q = Ret (Ok b)
   | Err _ => lsb_with_line crs p q = Ret (Err tt)
   end) /\
  (~ (List.length p = crs_dim crs /\ List.length q = crs_dim crs) -> lsb_with_line crs p q = Panic).
Proof.
  pose proof (crs_dim_nz crs) as Z. split.
  - intros Lp Lq. destruct (proj1 (crs_dist_total crs p q) Lp Lq) as [r E].
    exists r; split; [easy|]. unfold lsb_with_line. rewrite E. cbn [obind].
    destruct r as [d|[]]; [|easy]. unfold lsb_new, rassert. rewrite app_length, Lp, Lq.
    replace (crs_dim crs + crs_dim crs) with (2 * crs_dim crs) by lia.
    rewrite Nat.mod_mul, Nat.div_mul by easy. cbn [Nat.eqb].
    replace (Nat.leb _ _) with true by (symmetry; now apply Nat.leb_le).
    cbn. eauto.
  - intros H. unfold lsb_with_line. now rewrite (proj2 (crs_dist_total crs p q)).
Qed.

Lemma last_split {A} (l : list A) : 2 <= List.length l -> exists l' x, l = l' ++ [x].
Proof.
  intros L. destruct (exists_last (l := l)) as [l' [x E]]; eauto. intros ->; cbn in L; lia.
Qed.
Lemma lb_last (crs : Crs F) pts x b : lb_inv crs (pts ++ [x]) b ->
  nth_pos (lb_coord_dim b) (lb_pos b) (n_pos (lb_coord_dim b) (lb_pos b) - 1) = Ret x.
Proof.
  intros (Ec & Ed & Ep & HF & L & HM). rewrite Ed, Ep.
  rewrite n_pos_concat by (easy || apply crs_dim_nz). apply nth_pos_concat; [easy|].
  rewrite app_length. cbn. replace (List.length pts + 1 - 1) with (List.length pts) by lia.
  rewrite nth_error_app2, Nat.sub_diag by lia. easy.
Qed.

Lemma line_to_spec (crs : Crs F) pts b p : lb_inv crs pts b ->
  match lsb_line_to b p with
  | Ret (Ok b') => lb_inv crs (pts ++ [p]) b'
  | Ret (Err _) => True
  | _ => False
  end.
Proof.
  intros I. destruct (last_split pts) as (pts' & x & ->). { now destruct I as (_&_&_&_&?&_). }
  pose proof (lb_last _ _ _ _ I) as EL. destruct I as (Ec & Ed & Ep & HF & L & HM).
  unfold lsb_line_to. destruct (Nat.eqb_spec (List.length p) (lb_coord_dim b)) as [E|]; [|easy].
  rewrite EL. cbn [obind]. rewrite Ec.
  assert (Lx : List.length x = crs_dim crs).
  { rewrite Forall_app in HF. destruct HF as [_ HF]. now inversion HF. }
  destruct (proj1 (crs_dist_total crs x p) Lx) as [r Er]; [congruence|].
  rewrite Er. cbn [obind]. destruct r as [d|]; [|easy].
  repeat split; cbn; auto.
  - rewrite Ep, (concat_app (pts' ++ [x])). cbn. now rewrite app_nil_r.
  - apply Forall_app; split; [easy|]. constructor; [congruence|constructor].
  - rewrite (app_length (pts' ++ [x])). lia.
  - now apply measured_snoc.
Qed.
Lemma line_to_cases (crs : Crs F) pts x b p : lb_inv crs (pts ++ [x]) b ->
  (List.length p <> crs_dim crs -> lsb_line_to b p = Ret (Err tt)) /\
  (List.length p = crs_dim crs -> exists r, crs_dist crs x p = Ret r /\
     match r with
     | Ok _ => exists b', lsb_line_to b p = Ret (Ok b')
     | Err _ => lsb_line_to b p = Ret (Err tt)
     end).
Proof.
  intros I. pose proof (lb_last _ _ _ _ I) as EL. destruct I as (Ec & Ed & Ep & HF & L & HM).
  unfold lsb_line_to. rewrite Ed in *. split; intros E.
  - now destruct (Nat.eqb_spec (List.length p) (crs_dim crs)).
  - rewrite E, Nat.eqb_refl, EL, Ec. cbn [obind].
    assert (Lx : List.length x = crs_dim crs).
    { rewrite Forall_app in HF. destruct HF as [_ HF]. now inversion HF. }
    destruct (proj1 (crs_dist_total crs x p) Lx E) as [r Er]. exists r. rewrite Er.
    split; [easy|]. cbn [obind]. destruct r as [|[]]; eauto.
Qed.

Lemma line_tos_spec (crs : Crs F) ps : forall pts b b', lb_inv crs pts b ->
  line_tos b ps = Ret (Ok b') -> lb_inv crs (pts ++ ps) b'.
Proof.
  induction ps as [|p ps IH]; intros pts b b' I; cbn.
  - intros [= <-]. now rewrite app_nil_r.
  - pose proof (line_to_spec crs pts b p I) as S. destruct (lsb_line_to b p) as [[b1|]| |]; try easy.
    intros E. replace (pts ++ p :: ps) with ((pts ++ [p]) ++ ps) by now rewrite <- app_assoc.
    now apply IH with b1.
Qed.

Lemma build_positions (crs : Crs F) pts b : lb_inv crs pts b -> has_positions (lsb_build b) pts.
Proof.
  intros (Ec & Ed & Ep & HF & L & HM). split; unfold ls_n, ls_nth; cbn; rewrite Ed, Ep.
  - apply n_pos_concat; [apply crs_dim_nz|easy].
  - intros; now apply nth_pos_concat.
Qed.

Lemma positions_start (l : LineString F) p pts : has_positions l (p :: pts) -> ls_start l = Ret p.
Proof. intros [_ H]. now apply H. Qed.
Lemma positions_end (l : LineString F) pts x : has_positions l (pts ++ [x]) -> ls_end l = Ret x.
Proof.
  intros [E H]. unfold ls_end, rassert. rewrite E, app_length. cbn.
  replace (List.length pts + 1) with (S (List.length pts)) by lia. cbn.
  apply H. rewrite Nat.sub_0_r, nth_error_app2, Nat.sub_diag by lia. easy.
Qed.
Lemma last_snoc {A} (l : list A) (x d : A) : last (l ++ [x]) d = x.
Proof. induction l as [|a [|b l]]; cbn in *; auto. Qed.
Lemma positions_last (l : LineString F) pts d : pts <> [] -> has_positions l pts ->
  ls_end l = Ret (last pts d).
Proof.
  intros N H. destruct (exists_last N) as (pts' & x & ->). rewrite last_snoc.
  now apply positions_end with pts'.
Qed.

Lemma build_spec (crs : Crs F) p q b0 ps b : lsb_with_line crs p q = Ret (Ok b0) ->
  line_tos b0 ps = Ret (Ok b) ->
  let l := lsb_build b in let pts := p :: q :: ps in
  has_positions l pts /\ measured crs pts (ls_len l) /\ ls_coord_dim l = crs_dim crs /\
  Forall (fun x => List.length x = crs_dim crs) pts /\
  ls_start l = Ret p /\ ls_end l = Ret (last pts []).
Proof.
  intros W T l pts. pose proof (line_tos_spec crs ps _ _ _ (with_line_spec _ _ _ _ W) T) as I.
  cbn in I. pose proof (build_positions _ _ _ I) as P.
  destruct I as (Ec & Ed & Ep & HF & L & HM).
  split; [easy|]. split; [easy|]. split; [easy|]. split; [easy|]. split.
  - now apply positions_start with (q :: ps).
  - now apply positions_last.
Qed.

Lemma close_spec (crs : Crs F) p q b0 ps b l : lsb_with_line crs p q = Ret (Ok b0) ->
  line_tos b0 ps = Ret (Ok b) -> lsb_close b = Ret (Ok l) ->
  let pts := p :: q :: ps ++ [p] in
  has_positions l pts /\ measured crs pts (ls_len l) /\ ls_start l = Ret p /\ ls_end l = Ret p.
Proof.
  intros W T C pts. pose proof (line_tos_spec crs ps _ _ _ (with_line_spec _ _ _ _ W) T) as I.
  cbn in I. unfold lsb_close in C.
  assert (S0 : nth_pos (lb_coord_dim b) (lb_pos b) 0 = Ret p).
  { destruct I as (Ec & Ed & Ep & HF & L & HM). rewrite Ed, Ep. now apply nth_pos_concat. }
  rewrite S0 in C. cbn [obind] in C.
  pose proof (line_to_spec _ _ _ p I) as I'. destruct (lsb_line_to b p) as [[b'|]| |]; try easy.
  cbn in C. injection C as <-. pose proof (build_positions _ _ _ I') as P.
  cbn in P. split; [easy|]. split; [now destruct I' as (_&_&_&_&_&?)|]. split.
  - now apply positions_start with (q :: ps ++ [p]).
  - change (p :: q :: ps ++ [p]) with ((p :: q :: ps) ++ [p]) in P. now apply positions_end in P.
Qed.

(** errors and panics of a run *)
Lemma run_total (crs : Crs F) p q b0 ps : lsb_with_line crs p q = Ret (Ok b0) ->
  exists r, line_tos b0 ps = Ret r /\
  (forall b, r = Ok b -> exists r', lsb_close b = Ret r').
Proof.
  intros W. pose proof (with_line_spec _ _ _ _ W) as I. clear W.
  assert (G : forall pts b0, lb_inv crs pts b0 -> exists r, line_tos b0 ps = Ret r /\
    (forall b, r = Ok b -> lb_inv crs (pts ++ ps) b)).
  { clear. induction ps as [|x ps IH]; intros pts b0 I; cbn.
    - exists (Ok b0). split; [easy|]. intros b [= <-]. now rewrite app_nil_r.
    - pose proof (line_to_spec _ _ _ x I) as S. destruct (lsb_line_to b0 x) as [[b1|e]| |]; try easy.
      + destruct (IH _ _ S) as (r & E & K). exists r; split; [easy|].
        intros b Eb. replace (pts ++ x :: ps) with ((pts ++ [x]) ++ ps) by now rewrite <- app_assoc.
        now apply K.
      + exists (Err e). easy. }
  destruct (G _ _ I) as (r & E & K). exists r; split; [easy|]. intros b Eb. specialize (K b Eb).
  unfold lsb_close.
  assert (S0 : nth_pos (lb_coord_dim b) (lb_pos b) 0 = Ret p).
  { destruct K as (Ec & Ed & Ep & HF & L & HM). rewrite Ed, Ep. now apply nth_pos_concat. }
  rewrite S0. cbn [obind]. pose proof (line_to_spec _ _ _ p K) as S.
  destruct (lsb_line_to b p); cbn; eauto; easy.
Qed.
(** the first failing call of a run *)
Lemma run_error (crs : Crs F) p q b0 ps x : lsb_with_line crs p q = Ret (Ok b0) ->
  (exists b, line_tos b0 ps = Ret (Ok b)) ->
  (line_tos b0 (ps ++ [x]) = Ret (Err tt) <->
   List.length x <> crs_dim crs \/ crs_dist crs (last (p :: q :: ps) []) x = Ret (Err tt)).
Proof.
  intros W [b T]. pose proof (line_tos_spec crs ps _ _ _ (with_line_spec _ _ _ _ W) T) as I.
  cbn in I.
  assert (E : line_tos b0 (ps ++ [x]) = lsb_line_to b x).
  { clear - T. revert b0 T; induction ps as [|a ps IH]; intros b0; cbn.
    - intros [= ->]. destruct (lsb_line_to b x) as [[]| |]; easy.
    - destruct (lsb_line_to b0 a) as [[b1|]| |]; try easy. apply IH. }
  rewrite E. destruct (@exists_last _ (p :: q :: ps)) as (pts & y & Ey); [easy|].
  rewrite Ey in *. rewrite last_snoc. destruct (line_to_cases _ _ _ _ x I) as [A B]. split.
  - intros K. destruct (Nat.eq_dec (List.length x) (crs_dim crs)) as [L|]; [|now left].
    right. destruct (B L) as (r & D & R). rewrite D. destruct r as [|[]]; [|easy].
    destruct R as [b' R]. rewrite R in K. easy.
  - intros [K|K]; [now apply A|]. destruct (crs_dist_dims _ _ _ _ K) as [_ L].
    destruct (B L) as (r & D & R). rewrite D in K. injection K as ->. easy.
Qed.

Lemma pos_iter_spec (l : LineString F) pts : has_positions l pts ->
  ls_pos_iter l = pts.
Proof.
  intros [E H]. unfold ls_pos_iter. rewrite E. clear E.
  assert (G : forall pts' k, (forall i p, nth_error pts' i = Some p -> ls_nth l (k + i) = Ret p) ->
    map (fun n => firstn (ls_coord_dim l) (skipn (n * ls_coord_dim l) (ls_pos l)))
      (seq k (List.length pts')) = pts').
  { clear. induction pts' as [|p pts' IH]; intros k H; [easy|]. cbn. f_equal.
    - specialize (H 0 p eq_refl). unfold ls_nth, nth_pos, slice in H.
      rewrite Nat.add_0_r in H.
      replace ((k + 1) * ls_coord_dim l - k * ls_coord_dim l) with (ls_coord_dim l) in H by lia.
      destruct (_ && _); now inversion H.
    - apply IH. intros i x E. replace (S k + i) with (k + S i) by lia. now apply H. }
  now apply (G pts 0).
Qed.

(** [LineString::new] *)
Lemma ls_new_spec d (pos len : list F) (l : LineString F) : d <> 0 -> ls_new d pos len = Ret l ->
  exists pts, pos = concat pts /\ Forall (fun p => List.length p = d) pts /\
  2 <= List.length pts /\ List.length pts = S (List.length len) /\
  has_positions l pts /\ ls_coord_dim l = d /\ ls_len l = len.
Proof.
  intros Z. unfold ls_new, rassert.
  destruct (Nat.eqb_spec (List.length pos mod d) 0) as [M|]; [|easy].
  destruct (Nat.leb_spec (2 * d) (List.length pos)) as [L|]; [|easy].
  destruct (Nat.eqb_spec (List.length len) (List.length pos / d - 1)) as [K|]; [|easy].
  intros [= <-].
  assert (C : forall n (pos : list F), List.length pos = n * d ->
    exists pts, pos = concat pts /\ Forall (fun p => List.length p = d) pts /\ List.length pts = n).
  { clear. induction n as [|n IH]; intros pos E.
    - exists []. destruct pos; cbn in *; [repeat constructor|lia].
    - destruct (IH (skipn d pos)) as (pts & E1 & E2 & E3). { rewrite skipn_length. nia. }
      exists (firstn d pos :: pts). cbn. rewrite <- E1, firstn_skipn. split; [easy|].
      split; [|congruence]. constructor; [|easy]. rewrite firstn_length. nia. }
  apply Nat.div_exact in M; [|easy].
  destruct (C (List.length pos / d) pos) as (pts & E1 & E2 & E3); [lia|].
  exists pts. rewrite E3. split; [easy|]. split; [easy|].
  assert (2 <= List.length pos / d) by (apply Nat.div_le_lower_bound; lia).
  split; [lia|]. split; [lia|]. split; [|easy]. subst pos. split; unfold ls_n, ls_nth; cbn.
  - apply n_pos_concat; easy.
  - intros; now apply nth_pos_concat.
Qed.

(** ** Curves *)
Lemma end_start (l : LineString F) : well_made l -> exists s e, ls_start l = Ret s /\ ls_end l = Ret e.
Proof.
  intros [_ (pts & L & H)]. destruct pts as [|p pts]; [cbn in L; lia|].
  exists p. eexists. split; [now apply positions_start with pts|].
  apply (positions_last l (p :: pts) []); easy.
Qed.

Definition cvb_inv (crs : Crs F) (s0 : LineString F) (ss : list (LineString F)) (b : CurveBuilder F) :=
  cvb_crs b = crs /\ cvb_coord_dim b = crs_dim crs /\ cvb_seg b = s0 :: ss /\
  chained (s0 :: ss) /\ Forall (fun s => ls_coord_dim s = crs_dim crs) ss.

Lemma chained_snoc (ss : list (LineString F)) s s' e b : chained (ss ++ [s]) -> ls_end s = Ret e -> ls_start s' = Ret b ->
  pos_eq e b = true -> chained ((ss ++ [s]) ++ [s']).
Proof.
  induction ss as [|a ss IH]; cbn; intros H E B P.
  - econstructor; eauto. constructor.
  - destruct ss as [|c ss]; cbn in *; inversion H; subst; econstructor; eauto.
Qed.
Lemma last_unwrap_snoc {A} (l : list A) x : last_unwrap (l ++ [x]) = Ret x.
Proof. unfold last_unwrap. now rewrite rev_app_distr. Qed.

Lemma append_spec crs s0 ss b s b' : cvb_inv crs s0 ss b -> cvb_append b s = Ret (Ok b') ->
  cvb_inv crs s0 (ss ++ [s]) b'.
Proof.
  intros (E1 & E2 & E3 & E4 & E5). unfold cvb_append. rewrite E2.
  destruct (Nat.eqb_spec (crs_dim crs) (ls_coord_dim s)) as [D|]; [|easy]. cbn [negb].
  rewrite E3. destruct (@exists_last _ (s0 :: ss)) as (l & x & El); [easy|].
  rewrite El, last_unwrap_snoc. cbn [obind].
  destruct (ls_end x) as [e| |] eqn:Ee; try easy. cbn [obind].
  destruct (ls_start s) as [c| |] eqn:Ec; try easy. cbn [obind].
  destruct (pos_eq e c) eqn:P; [|easy]. cbn [negb]. intros [= <-].
  split; [easy|]. split; [easy|]. cbn [cvb_seg].
  replace (s0 :: ss ++ [s]) with ((l ++ [x]) ++ [s]) by now rewrite <- El.
  split; [easy|]. split.
  - rewrite El in E4. eapply chained_snoc; eauto.
  - apply Forall_app; split; [easy|]. now constructor.
Qed.
Lemma appends_spec crs s0 ss' : forall ss b b', cvb_inv crs s0 ss b -> appends b ss' = Ret (Ok b') ->
  cvb_inv crs s0 (ss ++ ss') b'.
Proof.
  induction ss' as [|s ss' IH]; intros ss b b' I; cbn.
  - intros [= <-]. now rewrite app_nil_r.
  - destruct (cvb_append b s) as [[b1|]| |] eqn:E; try easy. intros K.
    replace (ss ++ s :: ss') with ((ss ++ [s]) ++ ss') by now rewrite <- app_assoc.
    apply IH with b1; [|easy]. now apply append_spec with b.
Qed.
Lemma curve_spec (crs : Crs F) s0 b0 ss b : cvb_with_seg crs s0 = Ok b0 -> appends b0 ss = Ret (Ok b) ->
  let c := cvb_build b in
  cv_seg c = s0 :: ss /\ chained (s0 :: ss) /\ cv_coord_dim c = crs_dim crs /\
  Forall (fun s => ls_coord_dim s = crs_dim crs) ss /\
  cv_start c = ls_start s0 /\ cv_end c = ls_end (last (s0 :: ss) s0).
Proof.
  intros W T c. injection W as <-.
  assert (I0 : cvb_inv crs s0 [] (mkCVB crs (crs_dim crs) [s0])) by (repeat split; constructor).
  destruct (appends_spec _ _ _ _ _ _ I0 T) as (E1 & E2 & E3 & E4 & E5). cbn [app] in *.
  repeat split; auto.
  - unfold cv_start, c. cbn. now rewrite E3.
  - unfold cv_end, c. cbn [cvb_build cv_seg]. rewrite E3.
    destruct (@exists_last _ (s0 :: ss)) as (l & x & El); [easy|].
    rewrite El, last_unwrap_snoc, last_snoc. easy.
Qed.
(** the error cases of [append_segment] *)
Lemma append_cases (crs : Crs F) s0 b0 ss b s : cvb_with_seg crs s0 = Ok b0 -> appends b0 ss = Ret (Ok b) ->
  well_made s0 -> Forall well_made ss -> well_made s ->
  exists e c, ls_end (last (s0 :: ss) s0) = Ret e /\ ls_start s = Ret c /\
  cvb_append b s = (if Nat.eqb (ls_coord_dim s) (crs_dim crs) && pos_eq e c
                    then Ret (Ok (mkCVB crs (crs_dim crs) (s0 :: ss ++ [s]))) else Ret (Err tt)).
Proof.
  intros W T W0 WS Ws. injection W as <-.
  assert (I0 : cvb_inv crs s0 [] (mkCVB crs (crs_dim crs) [s0])) by (repeat split; constructor).
  destruct (appends_spec _ _ _ _ _ _ I0 T) as (E1 & E2 & E3 & E4 & E5). cbn [app] in *.
  unfold cvb_append. rewrite E1, E2, E3.
  assert (WL : well_made (last (s0 :: ss) s0)).
  { destruct (@exists_last _ (s0 :: ss)) as (l & x & El); [easy|]. rewrite El, last_snoc.
    assert (A : Forall well_made (l ++ [x])) by (rewrite <- El; now constructor).
    rewrite Forall_app in A. destruct A as [_ A]. now inversion A. }
  destruct (end_start _ WL) as (_ & e & _ & Ee). destruct (end_start _ Ws) as (c & _ & Ec & _).
  exists e, c. split; [easy|]. split; [easy|].
  destruct (@exists_last _ (s0 :: ss)) as (l & x & El); [easy|].
  rewrite El in *. rewrite last_snoc in Ee. rewrite last_unwrap_snoc. cbn [obind].
  rewrite (Nat.eqb_sym (ls_coord_dim s)). destruct (Nat.eqb _ _); [|easy]. cbn [negb andb].
  rewrite Ee, Ec. cbn [obind]. destruct (pos_eq e c); [|easy]. cbn [negb].
  repeat f_equal. now rewrite <- El.
Qed.

(** ** Cycles and boundaries *)
Lemma point_new_deref (pos : list F) : (List.length pos = 2 \/ List.length pos = 3 ->
  exists P, point_new pos = Ret P /\ point_deref P = Ret pos /\ pt_coord_dim P = List.length pos) /\
  (List.length pos <> 2 -> List.length pos <> 3 -> point_new pos = Panic).
Proof.
  split.
  - intros [H|H].
    + destruct (len2 _ H) as (a & b & ->). eexists. repeat split; reflexivity.
    + destruct (len3 _ H) as (a & b & c & ->). eexists. repeat split; reflexivity.
  - intros A B. unfold point_new, rassert.
    destruct (Nat.eqb_spec (List.length pos) 2); [easy|].
    destruct (Nat.eqb_spec (List.length pos) 3); easy.
Qed.
Lemma cycle_boundary (c : Curve F) s e : cv_start c = Ret s -> cv_end c = Ret e ->
  (List.length s = 2 \/ List.length s = 3) -> (List.length e = 2 \/ List.length e = 3) ->
  exists y, cv_is_cycle c = Ret y /\ (y = pos_eq s e) /\
  (y = true -> cv_boundary c = Ret None) /\
  (y = false -> exists P Q, cv_boundary c = Ret (Some (mkCB P Q)) /\
     point_deref P = Ret s /\ point_deref Q = Ret e).
Proof.
  intros S E LS LE. exists (pos_eq s e). unfold cv_boundary, cv_is_cycle. rewrite S, E. cbn [obind].
  split; [easy|]. split; [easy|]. split; intros ->; [easy|].
  destruct (proj1 (point_new_deref s) LS) as (P & EP & DP & _).
  destruct (proj1 (point_new_deref e) LE) as (Q & EQ & DQ & _).
  rewrite EP. cbn [obind]. rewrite EQ. cbn [obind]. eauto.
Qed.
Lemma nth_pos_length d (pos : list F) n p : nth_pos d pos n = Ret p -> List.length p = d.
Proof.
  unfold nth_pos, slice. destruct (Nat.leb_spec (n * d) ((n + 1) * d)); [|easy].
  destruct (Nat.leb_spec ((n + 1) * d) (List.length pos)); [|easy]. cbn.
  intros [= <-]. rewrite firstn_length, skipn_length. nia.
Qed.
Lemma curve_cycle (c : Curve F) s0 ss : cv_seg c = s0 :: ss -> well_made s0 -> Forall well_made ss ->
  exists s e, cv_start c = Ret s /\ cv_end c = Ret e /\
  exists y, cv_is_cycle c = Ret y /\ (y = pos_eq s e) /\
  (y = true -> cv_boundary c = Ret None) /\
  (y = false -> exists P Q, cv_boundary c = Ret (Some (mkCB P Q)) /\
     point_deref P = Ret s /\ point_deref Q = Ret e).
Proof.
  intros E W0 WS.
  assert (WL : well_made (last (s0 :: ss) s0)).
  { destruct (@exists_last _ (s0 :: ss)) as (l & x & El); [easy|]. rewrite El, last_snoc.
    assert (A : Forall well_made (l ++ [x])) by (rewrite <- El; now constructor).
    rewrite Forall_app in A. destruct A as [_ A]. now inversion A. }
  destruct (end_start _ W0) as (s & _ & Es & _). destruct (end_start _ WL) as (_ & e & _ & Ee).
  exists s, e.
  assert (S : cv_start c = Ret s) by (unfold cv_start; now rewrite E).
  assert (N : cv_end c = Ret e).
  { unfold cv_end. rewrite E. destruct (@exists_last _ (s0 :: ss)) as (l & x & El); [easy|].
    rewrite El, last_snoc in Ee. rewrite El, last_unwrap_snoc. easy. }
  split; [easy|]. split; [easy|]. apply cycle_boundary; auto.
  - destruct W0 as [D _]. unfold ls_start, ls_nth in Es. apply nth_pos_length in Es. now rewrite Es.
  - destruct WL as [D _]. unfold ls_end, ls_nth, rassert in Ee. destruct (Nat.leb _ _); [|easy].
    apply nth_pos_length in Ee. now rewrite Ee.
Qed.
Lemma ls_boundary (l : LineString F) : well_made l -> exists s e P Q,
  ls_start l = Ret s /\ ls_end l = Ret e /\ ls_curve_boundary l = Ret (mkCB P Q) /\
  point_deref P = Ret s /\ point_deref Q = Ret e /\ cb_geometry_type (mkCB P Q) = GPoint (ls_coord_dim l).
Proof.
  intros W. destruct (end_start _ W) as (s & e & S & E). destruct W as [D _].
  pose proof S as S'. unfold ls_start in S'. pose proof E as E'. unfold ls_end, rassert in E'.
  destruct (Nat.leb _ _); [|easy].
  pose proof (nth_pos_length _ _ _ _ S') as L. pose proof (nth_pos_length _ _ _ _ E') as L'.
  destruct (proj1 (point_new_deref s)) as (P & EP & DP & CP); [now rewrite L|].
  destruct (proj1 (point_new_deref e)) as (Q & EQ & DQ & CQ); [now rewrite L'|].
  exists s, e, P, Q. unfold ls_curve_boundary. rewrite S'. cbn [obind]. rewrite EP. cbn [obind].
  rewrite E'. cbn [obind]. rewrite EQ. cbn [obind]. repeat split; auto.
  unfold cb_geometry_type, point_geometry_type; cbn. now rewrite CP, L.
Qed.
Lemma built_well_made (crs : Crs F) p q b0 ps b : lsb_with_line crs p q = Ret (Ok b0) ->
  line_tos b0 ps = Ret (Ok b) -> well_made (lsb_build b).
Proof.
  intros W T. destruct (build_spec _ _ _ _ _ _ W T) as (P & _ & D & _).
  split; [rewrite D; apply crs_dim_23|]. exists (p :: q :: ps). split; [cbn; lia|easy].
Qed.
End G.
