(** Property C44, continued: the exponential function of the reals. *)
From Coq Require Import ZArith QArith Qround Qabs Qreals Reals Lia Lqa Lra.
From Verif Require Import Base BaseLemmas FloatLemmas FloatMono CostMap Inflation Spec DoubleSpec DoubleGeo DoubleMap PropDeflate.
Open Scope Z_scope.

(** The correctly rounded exponential: ex x is the double next to e^x, so the
    rounding of a number q compares with it as q does with e^x. *)
Definition rounded_exp (ex : Q -> Q) : Prop := (forall x y, (x == y)%Q -> (ex x == ex y)%Q) /\ forall x q,
  ((exp (Q2R x) <= Q2R q)%R -> (ex x <= rne 53 q)%Q) /\ ((Q2R q <= exp (Q2R x))%R -> (rne 53 q <= ex x)%Q).

(** A fraction between two reals. *)
Lemma rat_between (a b : R) : (a < b)%R -> exists q, (a < Q2R q)%R /\ (Q2R q < b)%R.
Proof.
  intros H. set (n := Z.to_pos (up (/ (b - a)))).
  assert (P : (0 < / (b - a))%R) by (apply Rinv_0_lt_compat; lra).
  destruct (archimed (/ (b - a))) as [A _].
  assert (N : (0 < up (/ (b - a)))%Z) by (apply lt_IZR; simpl; lra).
  assert (EN : IZR (Zpos n) = IZR (up (/ (b - a)))) by (unfold n; now rewrite Z2Pos.id).
  assert (NP : (0 < IZR (Zpos n))%R) by (apply IZR_lt; lia).
  assert (BN : (1 < (b - a) * IZR (Zpos n))%R).
  { rewrite EN. apply Rmult_lt_reg_l with (/ (b - a))%R; [exact P|]. rewrite <- Rmult_assoc, Rinv_l, Rmult_1_l by lra. lra. }
  exists (up (a * IZR (Zpos n)) # n). unfold Q2R. cbn [Qnum Qden].
  destruct (archimed (a * IZR (Zpos n))) as [U1 U2]. split.
  - apply Rmult_lt_reg_r with (IZR (Zpos n)); [exact NP|]. rewrite Rmult_assoc, Rinv_l, Rmult_1_r by lra. lra.
  - apply Rmult_lt_reg_r with (IZR (Zpos n)); [exact NP|]. rewrite Rmult_assoc, Rinv_l, Rmult_1_r by lra. lra.
Qed.

Lemma rounded_mono ex x y : rounded_exp ex -> (Q2R x < Q2R y)%R -> (ex x <= ex y)%Q.
Proof.
  intros [_ X] L. destruct (rat_between (exp (Q2R x)) (exp (Q2R y))) as (q & A & B); [now apply exp_increasing|].
  apply Qle_trans with (rne 53 q); [apply (X x q)|apply (X y q)]; lra.
Qed.

Theorem C44_exp : forall ex, rounded_exp ex -> exp_like ex.
Proof.
  intros ex X. split; [|split].
  - intros x y H. destruct (Qlt_le_dec x y) as [L|L].
    + apply rounded_mono; auto. now apply Qlt_Rlt.
    + assert (x == y)%Q as K by (now apply Qle_antisym). rewrite (proj1 X x y K). apply Qle_refl.
  - intros x. destruct X as [_ X]. change 0%Q with (rne 53 0). apply (X x 0%Q). rewrite RMicromega.Q2R_0. left. apply exp_pos.
  - intros x H. destruct X as [_ X]. change 1%Q with (rne 53 1). apply (X x 1%Q). rewrite RMicromega.Q2R_1. rewrite <- exp_0.
    apply Qle_Rle in H. rewrite RMicromega.Q2R_0 in H. destruct H as [H|H]; [left; now apply exp_increasing|right; now rewrite H].
Qed.
Print Assumptions C44_exp.

(** ** The value of the cost *)

Local Ltac qlra := Lqa.lra.
Lemma Rabs_bounds a b : (Rabs a <= b)%R -> (- b <= a <= b)%R.
Proof. intros H. pose proof (Rle_abs a). pose proof (Rle_abs (- a)) as K. rewrite Rabs_Ropp in K. lra. Qed.

(** An exponential that is accurate for arguments that are not positive. *)
Definition accurate_exp (ex : Q -> Q) : Prop :=
  forall x, (x <= 0)%Q -> (Rabs (Q2R (ex x) - exp (Q2R x)) <= / 1048576)%R.

(** The correctly rounded one is. *)
Lemma rounded_accurate ex : rounded_exp ex -> accurate_exp ex.
Proof.
  intros [_ X] x Hx.
  assert (E1 : (exp (Q2R x) <= 1)%R).
  { rewrite <- exp_0. apply Qle_Rle in Hx. rewrite RMicromega.Q2R_0 in Hx. destruct Hx as [H|H]; [left; now apply exp_increasing|right; now rewrite H]. }
  pose proof (exp_pos (Q2R x)) as EP.
  assert (R : forall q, (0 <= Q2R q <= 2)%R -> (Rabs (Q2R (rne 53 q) - Q2R q) <= / 4194304)%R).
  { intros q [Q0 Q2]. pose proof (rne_error 53 q ltac:(lia)) as K. change (pow2 (- (53))) with (1 # 9007199254740992)%Q in K.
    assert (0 <= q)%Q by (apply Rle_Qle; rewrite RMicromega.Q2R_0; exact Q0). rewrite (Qabs_pos q) in K by assumption.
    apply Qabs_Qle_condition in K as [K1 K2]. apply Qle_Rle in K1, K2. rewrite Q2R_opp, Q2R_minus, Q2R_mult in K1. rewrite Q2R_minus, Q2R_mult in K2.
    assert (V : Q2R (1 # 9007199254740992) = (/ 9007199254740992)%R) by (unfold Q2R; cbn; lra). rewrite V in K1, K2.
    apply Rabs_le. split; lra. }
  destruct (rat_between (exp (Q2R x)) (exp (Q2R x) + / 4194304)) as (q & A & B); [lra|].
  destruct (rat_between (exp (Q2R x) - / 4194304 * exp (Q2R x)) (exp (Q2R x))) as (p & C & D); [lra|].
  destruct (X x q) as [U _]. destruct (X x p) as [_ L]. specialize (U ltac:(lra)). specialize (L ltac:(lra)).
  apply Qle_Rle in U, L. pose proof (R q ltac:(lra)) as RQ. pose proof (R p ltac:(lra)) as RP.
  apply Rabs_bounds in RQ, RP. apply Rabs_le. split; lra.
Qed.

(** e^-x changes little when x changes by a small part of itself. *)
Lemma exp_close x y d : (0 <= x)%R -> (0 <= d <= / 2)%R -> (Rabs (y - x) <= d * x)%R -> (Rabs (exp (- y) - exp (- x)) <= 2 * d)%R.
Proof.
  intros X D H. apply Rabs_bounds in H as [H1 H2].
  assert (S : forall a b, (x - d * x <= a)%R -> (a <= b)%R -> (b - a <= d * x)%R -> (0 <= exp (- a) - exp (- b) <= 2 * d)%R).
  { intros a b A AB BA. assert (EB : exp (- b) = (exp (- a) * exp (- (b - a)))%R) by (rewrite <- exp_plus; f_equal; ring).
    assert (I : (1 - (b - a) <= exp (- (b - a)))%R).
    { destruct (Req_dec (- (b - a)) 0) as [Z|Z]; [rewrite Z, exp_0; lra|]. pose proof (exp_ineq1 _ Z). lra. }
    assert (J : (exp (- (b - a)) <= 1)%R).
    { rewrite <- exp_0. destruct (Req_dec (- (b - a)) 0) as [Z|Z]; [rewrite Z; lra|]. left. apply exp_increasing. lra. }
    pose proof (exp_pos (- a)) as P. rewrite EB. split; [nra|].
    assert (K : (exp (- a) * (b - a) <= 2 * d)%R); [|nra].
    assert (XA : (x <= 2 * a)%R) by nra. assert (A0 : (0 <= a)%R) by nra.
    assert (M : (exp (- a) * a <= 1)%R).
    { assert (exp (- a) * exp a = 1)%R by (rewrite <- exp_plus, Rplus_opp_l; apply exp_0).
      destruct (Req_dec a 0) as [->|NZ]; [lra|]. pose proof (exp_ineq1 a NZ). nra. }
    assert (b - a <= d * (2 * a))%R by nra. assert (exp (- a) * (b - a) <= exp (- a) * (d * (2 * a)))%R by (apply Rmult_le_compat_l; lra). nra. }
  destruct (Rle_lt_dec x y) as [L|L].
  - destruct (S x y ltac:(nra) L ltac:(lra)). apply Rabs_le. lra.
  - destruct (S y x ltac:(lra) ltac:(lra) ltac:(lra)). apply Rabs_le. lra.
Qed.

(** Every rounding step moves the exponent by a small part of itself. *)
Lemma exponent_error (E : Env) F w D : real_or_double E -> (forall q, Qabs (f32 F q - q) <= (1 # 16777216) * Qabs q)%Q -> (0 <= w)%Q -> (0 <= D)%Q ->
  let arg := fmul (fmul (-(1)) w) (f32 F D) in (arg <= 0)%Q /\ (Qabs (- arg - w * D) <= (1 # 8388608) * (w * D))%Q.
Proof.
  intros X NF W D0. pose proof (near_real E X) as N. cbv zeta.
  pose proof (N (-(1) * w)%Q) as K1. change (rnd (-(1) * w)) with (fmul (-(1)) w) in K1. set (a := fmul (-(1)) w) in *.
  assert (A1 : (Qabs (-(1) * w) == w)%Q) by (assert (-(1) * w == - w)%Q as -> by ring; rewrite Qabs_opp; now apply Qabs_pos). rewrite A1 in K1.
  pose proof (NF D) as K2. set (b := f32 F D) in *. rewrite (Qabs_pos D) in K2 by assumption.
  pose proof (N (a * b)%Q) as K3. change (rnd (a * b)) with (fmul a b) in K3. set (c := fmul a b) in *. clearbody a b c.
  unfold ulp in *. apply Qabs_Qle_condition in K1 as [K1 K1'], K2 as [K2 K2'].
  assert (NA : (0 <= - a)%Q) by qlra. assert (BP : (0 <= b)%Q) by qlra.
  assert (AL : ((9007199254740991 # 9007199254740992) * w <= - a)%Q) by qlra. assert (AU : (- a <= (9007199254740993 # 9007199254740992) * w)%Q) by qlra.
  assert (BL : ((16777215 # 16777216) * D <= b)%Q) by qlra. assert (BU : (b <= (16777217 # 16777216) * D)%Q) by qlra.
  assert (WD : (0 <= w * D)%Q) by (now apply Qmult_le_0_compat).
  assert (PU : (- a * b <= ((9007199254740993 # 9007199254740992) * (16777217 # 16777216)) * (w * D))%Q).
  { apply Qle_trans with (((9007199254740993 # 9007199254740992) * w) * ((16777217 # 16777216) * D))%Q; [|apply Qle_lteq; right; ring].
    apply Qle_trans with (((9007199254740993 # 9007199254740992) * w) * b)%Q; [apply Qmult_le_compat_r; assumption|].
    rewrite !(Qmult_comm ((9007199254740993 # 9007199254740992) * w)). apply Qmult_le_compat_r; [assumption|qlra]. }
  assert (PL : (((9007199254740991 # 9007199254740992) * (16777215 # 16777216)) * (w * D) <= - a * b)%Q).
  { apply Qle_trans with (((9007199254740991 # 9007199254740992) * w) * ((16777215 # 16777216) * D))%Q; [apply Qle_lteq; right; ring|].
    apply Qle_trans with (((9007199254740991 # 9007199254740992) * w) * b)%Q; [|apply Qmult_le_compat_r; assumption].
    rewrite !(Qmult_comm ((9007199254740991 # 9007199254740992) * w)). apply Qmult_le_compat_r; [assumption|qlra]. }
  assert (PP : (0 <= - a * b)%Q) by (now apply Qmult_le_0_compat).
  assert (QA : (Qabs (a * b) == - a * b)%Q) by (assert (a * b == - (- a * b))%Q as -> by ring; rewrite Qabs_opp; now apply Qabs_pos).
  rewrite QA in K3. assert (AB : (a * b == - (- a * b))%Q) by ring. rewrite AB in K3. set (P := (- a * b)%Q) in *. set (S := (w * D)%Q) in *. clearbody P S.
  apply Qabs_Qle_condition in K3 as [K3 K3']. split; [qlra|]. apply Qabs_Qle_condition. split; qlra.
Qed.

(** Beyond the inscribed radius the cost is 252 e^(-weight (distance - radius)),
    truncated, up to an error of a thousandth before the truncation. *)
Theorem C44_value : forall (E : Env) F ex, real_or_double E -> rounding (f32 F) ->
  (forall q, Qabs (f32 F q - q) <= (1 # 16777216) * Qabs q)%Q -> exp_like ex -> accurate_exp ex ->
  forall ir w d, (0 <= w)%Q -> (0 < d)%Q -> (ir < d)%Q ->
  let c := (252 * exp (- (Q2R w * (Q2R d - Q2R ir))))%R in
  exists v, ros_cost F ex ir w d = Ok v /\ (c - 1 - / 1000 < IZR v <= c + / 1000)%R.
Proof.
  intros E F ex X RF NF EL AC ir w d W D0 DI c.
  assert (RE : rounding rnd). { destruct X as [X'|[p ->]]; [now apply (proj2 C44_rounding)|apply (proj1 C44_rounding 53); lia]. }
  destruct (curve F ex RE RF EL ir w W d ltac:(qlra)) as (v & RV & C). exists v. split; [exact RV|].
  destruct C as [[Z _]|[(_ & K & _)|(_ & _ & ->)]]; [qlra|qlra|].
  destruct (tail_range F ex RE RF EL ir w W d ltac:(qlra)) as [T0 T1].
  rewrite Qtrunc_nonneg by assumption. pose proof (Qfloor_le (tail_value F ex ir w d)) as FL. pose proof (Qlt_floor (tail_value F ex ir w d)) as FU.
  set (fl := Qfloor (tail_value F ex ir w d)) in *. clearbody fl.
  apply Qle_Rle in FL. apply Qlt_Rlt in FU. rewrite inject_Z_plus, Q2R_plus in FU.
  assert (IZ : forall z, Q2R (inject_Z z) = IZR z) by (intros z; unfold Q2R, inject_Z; cbn; field). rewrite IZ in FL. rewrite !IZ in FU.
  unfold tail_value in *. destruct (exponent_error E F w (d - ir) X NF W ltac:(qlra)) as [AN AE].
  set (arg := fmul (fmul (-(1)) w) (f32 F (d - ir))) in *. clearbody arg.
  specialize (AC arg AN). set (e := ex arg) in *.
  change (inject_Z (INSCRIBED_OBSTACLE - 1)) with (252 # 1)%Q in *.
  assert (E0 : (0 <= e)%Q) by (apply EL). assert (E1 : (e <= 1)%Q) by (apply EL; assumption). clearbody e.
  pose proof (near_real E X ((252 # 1) * e)%Q) as K. change (rnd ((252 # 1) * e)) with (fmul (252 # 1) e) in K. rewrite (Qabs_pos ((252 # 1) * e)) in K by qlra.
  set (t := fmul (252 # 1) e) in *. clearbody t. apply Qabs_Qle_condition in K as [K1 K2]. unfold ulp in *.
  assert (K3 : (t <= (252 # 1) * e + (1 # 1000000))%Q) by qlra. assert (K4 : ((252 # 1) * e - (1 # 1000000) <= t)%Q) by qlra. clear K1 K2.
  apply Qle_Rle in K3, K4. rewrite Q2R_plus, Q2R_mult in K3. rewrite Q2R_minus, Q2R_mult in K4.
  assert (V1 : Q2R (252 # 1) = 252%R) by (unfold Q2R; cbn; lra). assert (V2 : Q2R (1 # 1000000) = (/ 1000000)%R) by (unfold Q2R; cbn; lra). rewrite V1, V2 in *.
  apply Qabs_Qle_condition in AE as [AE1 AE2]. apply Qle_Rle in AE1, AE2. rewrite Q2R_opp, Q2R_minus, Q2R_opp, !Q2R_mult, Q2R_minus in AE1. rewrite Q2R_minus, Q2R_opp, !Q2R_mult, Q2R_minus in AE2.
  assert (V3 : Q2R (1 # 8388608) = (/ 8388608)%R) by (unfold Q2R; cbn; lra). rewrite V3 in *.
  assert (WR : (0 <= Q2R w * (Q2R d - Q2R ir))%R).
  { apply Rmult_le_pos; [rewrite <- RMicromega.Q2R_0; now apply Qle_Rle|]. apply Qlt_Rlt in DI. lra. }
  subst c. set (x := (Q2R w * (Q2R d - Q2R ir))%R) in *. clearbody x.
  pose proof (exp_close x (- Q2R arg) (/ 8388608) WR ltac:(lra) ltac:(apply Rabs_le; lra)) as B. rewrite Ropp_involutive in B.
  apply Rabs_bounds in B, AC. split; lra.
Qed.
Print Assumptions C44_value.

(** An exponential of this kind: e^x rounded down to a multiple of 2^-30. *)
Definition grid_exp (x : Q) : Q := (up (exp (Q2R x) * 1073741824) - 1 # 1073741824)%Q.

Lemma grid_exp_bounds x : (exp (Q2R x) - / 1073741824 <= Q2R (grid_exp x) <= exp (Q2R x))%R.
Proof.
  unfold grid_exp, Q2R. cbn [Qnum Qden]. destruct (archimed (exp (Q2R x) * 1073741824)) as [A B]. fold (Q2R x). rewrite minus_IZR.
  set (u := IZR (up (exp (Q2R x) * 1073741824))) in *. set (e := exp (Q2R x)) in *. clearbody u e. lra.
Qed.

Lemma grid_exp_ok : exp_like grid_exp /\ accurate_exp grid_exp.
Proof.
  assert (M : forall x y, (exp (Q2R x) <= exp (Q2R y))%R -> (grid_exp x <= grid_exp y)%Q).
  { intros x y H. unfold grid_exp, Qle. cbn [Qnum Qden]. apply Z.mul_le_mono_nonneg_r; [lia|]. apply Z.sub_le_mono_r.
    destruct (Z_le_gt_dec (up (exp (Q2R x) * 1073741824)) (up (exp (Q2R y) * 1073741824))) as [L|L]; [exact L|exfalso].
    assert (K : up (exp (Q2R y) * 1073741824) <= up (exp (Q2R x) * 1073741824) - 1) by lia. apply IZR_le in K. rewrite minus_IZR in K.
    destruct (archimed (exp (Q2R x) * 1073741824)) as [A B], (archimed (exp (Q2R y) * 1073741824)) as [C D]. lra. }
  assert (I : forall x y, (x <= y)%Q -> (exp (Q2R x) <= exp (Q2R y))%R).
  { intros x y H. apply Qle_Rle in H. destruct H as [H|H]; [left; now apply exp_increasing|right; now rewrite H]. }
  split; [split; [|split]|].
  - intros x y H. apply M, I, H.
  - intros x. unfold grid_exp, Qle. cbn [Qnum Qden]. pose proof (exp_pos (Q2R x)).
    assert (0 < up (exp (Q2R x) * 1073741824)) as K; [|lia]. apply lt_IZR. destruct (archimed (exp (Q2R x) * 1073741824)) as [A _]. lra.
  - intros x H. apply Rle_Qle. rewrite RMicromega.Q2R_1. destruct (grid_exp_bounds x) as [_ U]. apply I in H. rewrite RMicromega.Q2R_0, exp_0 in H. lra.
  - intros x _. destruct (grid_exp_bounds x) as [L U]. apply Rabs_le. lra.
Qed.

(** With it, 0.2 m beyond the inscribed radius at a weight of 5 the cost is about
    252/e. *)
Example C44_value_case : exists v, ros_cost (E := binary64 BClamp) (FEnv (rne 24) (fun _ _ => 0%Q)) grid_exp (3#10) 5 (1#2) = Ok v /\ 82 <= v <= 126.
Proof.
  destruct (C44_value (binary64 BClamp) (FEnv (rne 24) (fun _ _ => 0%Q)) grid_exp) with (ir := (3#10)%Q) (w := 5%Q) (d := (1#2)%Q) as (v & RV & L & U).
  - right. now exists BClamp.
  - apply (proj1 C44_rounding 24). lia.
  - intros q. cbn [f32]. change (1 # 16777216)%Q with (pow2 (- (24))). apply rne_error. lia.
  - apply grid_exp_ok.
  - apply grid_exp_ok.
  - discriminate.
  - reflexivity.
  - reflexivity.
  - exists v. split; [exact RV|]. assert (A : (Q2R 5 * (Q2R (1 # 2) - Q2R (3 # 10)) = 1)%R) by (unfold Q2R; cbn; lra). rewrite A in L, U.
    pose proof exp_le_3 as E3. pose proof (exp_ineq1 1 ltac:(lra)) as E2. assert (P : (exp (-1) * exp 1 = 1)%R) by (rewrite <- exp_plus; replace (-1 + 1)%R with 0%R by ring; apply exp_0).
    pose proof (exp_pos (-1)) as EP. change (- (1))%R with (-1)%R in L, U. set (a := exp (-1)) in *. set (b := exp 1) in *. clearbody a b.
    assert (/ 3 <= a)%R by nra. assert (a < / 2)%R by nra.
    split; [apply le_IZR; lra|]. assert (v < 127) as K by (apply lt_IZR; lra). lia.
Qed.
