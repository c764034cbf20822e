(** The ellipse iterator with rounded arithmetic, for ellipses well inside the map. *)
From Coq Require Import ZArith QArith Qround Qabs Qfield String List Bool Lia Lqa.
From Verif Require Import Base Mat GridMapMath GridIter CostMap Iterators Spec History BaseLemmas GeoLemmas CoreProofs CoreProofs2 CoreFinal IterProofs
  MoveProofs SubmapProofs FilterProofs DoubleSpec DoubleGeo DoubleMap DoubleSub DoubleShape.
Import ListNotations.
Open Scope Z_scope.

Lemma abs_mul a b A B : (Qabs a <= A)%Q -> (Qabs b <= B)%Q -> (- (A * B) <= a * b /\ a * b <= A * B)%Q.
Proof.
  intros HA HB. apply Qabs_Qle_condition. rewrite Qabs_Qmult. pose proof (Qabs_nonneg a). pose proof (Qabs_nonneg b).
  apply Qle_trans with (A * Qabs b)%Q; [apply Qmult_le_compat_r; auto|]. rewrite !(Qmult_comm A). apply Qmult_le_compat_r; lra.
Qed.

Section Test.
Context {E : Env} (N : Near E).

(** One rotated coordinate: three blurs. *)
Lemma lin_err cs sn dx dy x y A : (0 <= A)%Q -> (Qabs cs <= 21#20)%Q -> (Qabs sn <= 21#20)%Q ->
  (Qabs x <= 2 * A)%Q -> (Qabs y <= 2 * A)%Q -> (Qabs (dx - x) <= (181#10) * (ulp * A))%Q -> (Qabs (dy - y) <= (181#10) * (ulp * A))%Q ->
  (Qabs (fadd (fmul cs dx) (fmul sn dy) - (cs * x + sn * y)) <= 48 * (ulp * A))%Q.
Proof.
  intros A0 HC HS HX HY DX DY.
  assert (DA : (ulp * A <= A * (1#512))%Q) by (unfold ulp; lra). assert (D0 : (0 <= ulp * A)%Q) by (unfold ulp; lra).
  assert (BX : (Qabs dx <= (21#10) * A)%Q). { apply Qabs_Qle_condition in HX as [? ?], DX as [? ?]. apply Qabs_Qle_condition. split; lra. }
  assert (BY : (Qabs dy <= (21#10) * A)%Q). { apply Qabs_Qle_condition in HY as [? ?], DY as [? ?]. apply Qabs_Qle_condition. split; lra. }
  destruct (abs_mul _ _ _ _ HC BX) as [c1 c2]. destruct (abs_mul _ _ _ _ HS BY) as [s1 s2].
  destruct (abs_mul _ _ _ _ HC DX) as [c3 c4]. destruct (abs_mul _ _ _ _ HS DY) as [s3 s4].
  set (d := (ulp * A)%Q) in *. unfold fadd, fmul. pose proof (nrA N A) as R. fold d in R.
  destruct (R (cs * dx)%Q (221#100) ltac:(lra) ltac:(lra)) as [u1 u2]. set (m1 := rnd (cs * dx)) in *. clearbody m1.
  destruct (R (sn * dy)%Q (221#100) ltac:(lra) ltac:(lra)) as [v1 v2]. set (m2 := rnd (sn * dy)) in *. clearbody m2.
  destruct (R (m1 + m2)%Q (45#10) ltac:(lra) ltac:(lra)) as [w1 w2]. set (z := rnd (m1 + m2)) in *. clearbody z.
  apply Qabs_Qle_condition. split; lra.
Qed.

Lemma quot_rel a L : (0 < L)%Q -> exists f,
  (fdiv (fmul a a) (fmul (fmul (1#2) L) (fmul (1#2) L)) == a / (L / 2) * (a / (L / 2)) * f)%Q /\ factor (55#10) f.
Proof.
  intros HL. destruct (fmul_rel N a a) as (f1 & e1 & F1). destruct (fmul_rel N (1#2) L) as (f2 & e2 & F2).
  set (h := fmul (1#2) L) in *. clearbody h. destruct (fmul_rel N h h) as (f3 & e3 & F3).
  set (n := fmul a a) in *. set (q := fmul h h) in *. clearbody n q. destruct (fdiv_rel N n q) as (f4 & e4 & F4).
  destruct (factor_inv 1 f2 ltac:(lra) F2) as [_ P2]. destruct (factor_inv 1 f3 ltac:(lra) F3) as [_ P3].
  assert (F22 : factor (21#10) (f2 * f2)) by (eapply factor_le; [|apply (factor_mul 1 1); [| |exact F2|exact F2]]; lra).
  assert (F23 : factor (32#10) (f2 * f2 * f3)) by (eapply factor_le; [|apply (factor_mul (21#10) 1); [| |exact F22|exact F3]]; lra).
  assert (F14 : factor (21#10) (f1 * f4)) by (eapply factor_le; [|apply (factor_mul 1 1); [| |exact F1|exact F4]]; lra).
  assert (FI : factor (33#10) (/ (f2 * f2 * f3))).
  { eapply factor_le; [|apply (factor_inv (32#10)); [|exact F23]]; lra. }
  exists (f1 * f4 * / (f2 * f2 * f3))%Q. split.
  - rewrite e4, e1, e3, e2. field. repeat split; lra.
  - eapply factor_le; [|apply (factor_mul (21#10) (33#10)); [| |exact F14|exact FI]]; lra.
Qed.

Lemma ellipse_value a b L0 L1 : (0 < L0)%Q -> (0 < L1)%Q ->
  let v := fadd (fdiv (fmul a a) (fmul (fmul (1#2) L0) (fmul (1#2) L0))) (fdiv (fmul b b) (fmul (fmul (1#2) L1) (fmul (1#2) L1))) in
  let q := (a / (L0 / 2) * (a / (L0 / 2)) + b / (L1 / 2) * (b / (L1 / 2)))%Q in
  ((1 - 7 * ulp) * q <= v /\ v <= (1 + 7 * ulp) * q)%Q.
Proof.
  intros H0 H1. destruct (quot_rel a L0 H0) as (f & Ef & Ff). destruct (quot_rel b L1 H1) as (g & Eg & Fg).
  set (t0 := fdiv (fmul a a) _) in *. set (t1 := fdiv (fmul b b) _) in *. clearbody t0 t1. cbn zeta.
  destruct (fadd_rel N t0 t1) as (h & Eh & Fh). rewrite Eh, Ef, Eg.
  assert (EQ : forall x y : Q, ((x * f + y * g) * h == x * (f * h) + y * (g * h))%Q) by (intros; ring). rewrite EQ.
  apply factor_sum; try apply square_nonneg; (eapply factor_le; [|apply (factor_mul (55#10) 1); [| |eassumption|exact Fh]]; lra).
Qed.

Lemma in_ellipse_scaled c L cs sn k q : (0 < k)%Q -> (0 < fst L)%Q -> (0 < snd L)%Q ->
  let a := (cs * (fst q - fst c) + sn * (snd q - snd c))%Q in let b := (sn * (fst q - fst c) + - cs * (snd q - snd c))%Q in
  in_ellipse c (scaled k L) cs sn q <->
  (a / (fst L / 2) * (a / (fst L / 2)) + b / (snd L / 2) * (b / (snd L / 2)) <= k * k)%Q.
Proof.
  intros Hk H0 H1 a b. unfold in_ellipse, scaled. cbn [fst snd].
  set (S := (a / (fst L / 2) * (a / (fst L / 2)) + b / (snd L / 2) * (b / (snd L / 2)))%Q).
  assert (EQ : ((cs * (fst q - fst c) + sn * (snd q - snd c)) * (cs * (fst q - fst c) + sn * (snd q - snd c)) / (k * fst L / 2 * (k * fst L / 2)) +
    (sn * (fst q - fst c) - cs * (snd q - snd c)) * (sn * (fst q - fst c) - cs * (snd q - snd c)) / (k * snd L / 2 * (k * snd L / 2)) == S / (k * k))%Q).
  { unfold S, a, b. field. repeat split; lra. }
  rewrite EQ. assert (KK : (0 < k * k)%Q) by (apply Qmult_lt_0_compat; auto). split; intros H.
  - apply Qmult_le_r with (z := / (k * k)); [apply Qinv_lt_0_compat; auto|]. rewrite Qmult_inv_r by lra. exact H.
  - apply Qle_shift_div_r; auto. lra.
Qed.

Lemma div_abs e h x y : (0 < h)%Q -> (Qabs (x - y) <= e * h)%Q -> (Qabs (x / h - y / h) <= e)%Q.
Proof.
  intros Hh H. setoid_replace (x / h - y / h)%Q with ((x - y) / h)%Q by (field; lra).
  apply Qabs_Qle_condition in H as [H1 H2]. apply Qabs_Qle_condition. split.
  - apply Qle_shift_div_l; auto. lra.
  - apply Qle_shift_div_r; auto.
Qed.

(** [p] is the rounded position of a cell with centre [q]. *)
Lemma ellipse_test c L cs sn p q A tau : (0 <= A)%Q -> (0 < fst L)%Q -> (0 < snd L)%Q -> (fst L <= A)%Q -> (snd L <= A)%Q ->
  (cs * cs + sn * sn <= 11#10)%Q ->
  (Qabs (fst q - fst c) <= 2 * A)%Q -> (Qabs (snd q - snd c) <= 2 * A)%Q ->
  (Qabs (fst p - fst q) <= 16 * (ulp * A))%Q -> (Qabs (snd p - snd q) <= 16 * (ulp * A))%Q ->
  (160 * (ulp * A) <= tau * fst L)%Q -> (160 * (ulp * A) <= tau * snd L)%Q -> (0 < tau)%Q -> (tau < 1)%Q ->
  let dx := fsub (fst p) (fst c) in let dy := fsub (snd p) (snd c) in
  let a := fadd (fmul cs dx) (fmul sn dy) in let b := fadd (fmul sn dx) (fmul (Qopp cs) dy) in
  let t := Qle_bool (fadd (fdiv (fmul a a) (fmul (fmul (1#2) (fst L)) (fmul (1#2) (fst L)))) (fdiv (fmul b b) (fmul (fmul (1#2) (snd L)) (fmul (1#2) (snd L))))) 1 in
  (t = true -> in_ellipse c (scaled (1 + tau) L) cs sn q) /\ (in_ellipse c (scaled (1 - tau) L) cs sn q -> t = true).
Proof.
  intros A0 L0 L1 LA0 LA1 HN X0 X1 P0 P1 T0 T1 TP TL dx dy a b t.
  assert (SQ : forall z, (z * z <= 11#10 -> Qabs z <= 21#20)%Q).
  { intros z Hz. destruct (square_abs z (21#20)); [lra|lra|]. apply Qabs_Qle_condition. split; lra. }
  pose proof (square_nonneg cs) as C0. pose proof (square_nonneg sn) as S0.
  assert (HC : (Qabs cs <= 21#20)%Q) by (apply SQ; lra). assert (HS : (Qabs sn <= 21#20)%Q) by (apply SQ; lra).
  assert (HC' : (Qabs (- cs) <= 21#20)%Q) by now rewrite Qabs_opp.
  assert (DD : forall pp qq cc, (Qabs (qq - cc) <= 2 * A -> Qabs (pp - qq) <= 16 * (ulp * A) -> Qabs (fsub pp cc - (qq - cc)) <= (181#10) * (ulp * A))%Q).
  { intros pp qq cc H1 H2. apply Qabs_Qle_condition in H1 as [? ?], H2 as [? ?].
    assert (DA : (ulp * A <= A * (1#512))%Q) by (unfold ulp; lra). assert (D0 : (0 <= ulp * A)%Q) by (unfold ulp; lra).
    unfold fsub. destruct (nrA N A (pp - cc)%Q (205#100)) as [u v]; [lra|lra|]. apply Qabs_Qle_condition. split; lra. }
  pose proof (DD _ _ _ X0 P0) as Dx. pose proof (DD _ _ _ X1 P1) as Dy. fold dx in Dx. fold dy in Dy.
  pose proof (lin_err cs sn dx dy _ _ A A0 HC HS X0 X1 Dx Dy) as EA. fold a in EA.
  pose proof (lin_err sn (- cs) dx dy _ _ A A0 HS HC' X0 X1 Dx Dy) as EBB. fold b in EBB.
  set (a0 := (cs * (fst q - fst c) + sn * (snd q - snd c))%Q) in *. set (b0 := (sn * (fst q - fst c) + - cs * (snd q - snd c))%Q) in *.
  unfold t. rewrite Qle_bool_iff. destruct (ellipse_value a b (fst L) (snd L) L0 L1) as [V1 V2]. cbn zeta in V1, V2.
  set (v := fadd (fdiv _ _) (fdiv _ _)) in *. clearbody v a b. clear t.
  (* all relative to the half axes *)
  set (ep := ((6#10) * tau)%Q).
  assert (HA : (Qabs (a / (fst L / 2) - a0 / (fst L / 2)) <= ep)%Q).
  { apply div_abs; [apply Qlt_shift_div_l; lra|]. eapply Qle_trans; [exact EA|]. unfold ep. setoid_replace ((6 # 10) * tau * (fst L / 2))%Q with ((3#10) * (tau * fst L))%Q by field. lra. }
  assert (HB : (Qabs (b / (snd L / 2) - b0 / (snd L / 2)) <= ep)%Q).
  { apply div_abs; [apply Qlt_shift_div_l; lra|]. eapply Qle_trans; [exact EBB|]. unfold ep. setoid_replace ((6 # 10) * tau * (snd L / 2))%Q with ((3#10) * (tau * snd L))%Q by field. lra. }
  assert (TU : (100 * ulp <= tau)%Q).
  { assert (160 * (ulp * fst L) <= tau * fst L)%Q.
    { eapply Qle_trans; [|exact T0]. assert (ulp * fst L <= ulp * A)%Q by (apply Qmult_le_l; [reflexivity|auto]). lra. }
    apply Qmult_le_r with (z := fst L); auto.
    assert (0 <= ulp * fst L)%Q by (apply Qmult_le_0_compat; [discriminate|lra]). lra. }
  set (x := (a / (fst L / 2))%Q) in *. set (y := (b / (snd L / 2))%Q) in *.
  assert (EQ : forall k, (0 < k)%Q -> in_ellipse c (scaled k L) cs sn q <-> (a0 / (fst L / 2) * (a0 / (fst L / 2)) + b0 / (snd L / 2) * (b0 / (snd L / 2)) <= k * k)%Q).
  { intros k Hk. apply in_ellipse_scaled; auto. }
  rewrite !EQ by lra. set (x0 := (a0 / (fst L / 2))%Q) in *. set (y0 := (b0 / (snd L / 2))%Q) in *. clearbody x y x0 y0.
  assert (E0 : (0 <= ep)%Q) by (unfold ep; lra).
  split; intros H.
  - assert (S1 : (x * x + y * y <= (1 + 4 * ulp) * (1 + 4 * ulp))%Q).
    { apply Qmult_le_l with (z := (1 - 7 * ulp)%Q); [reflexivity|]. apply Qle_trans with 1%Q; [lra|discriminate]. }
    eapply Qle_trans; [apply (norm_perturb x y x0 y0 (1 + 4 * ulp) ep); auto; try discriminate|].
    + rewrite Qabs_Qminus. exact HA.
    + rewrite Qabs_Qminus. exact HB.
    + apply square_mono; unfold ep; [unfold ulp; lra|]. unfold ulp in *. lra.
  - assert (S1 : (x * x + y * y <= (1 - 5 * ulp) * (1 - 5 * ulp))%Q).
    { eapply Qle_trans; [apply (norm_perturb x0 y0 x y (1 - tau) ep); auto; try lra|].
      apply square_mono; unfold ep; unfold ulp in *; lra. }
    eapply Qle_trans; [exact V2|]. apply Qle_trans with ((1 + 7 * ulp) * ((1 - 5 * ulp) * (1 - 5 * ulp)))%Q; [|discriminate].
    apply Qmult_le_l; [reflexivity|auto].
Qed.
End Test.

(** ** The window *)
Section Half.
Context {E : Env} (N : Near E).

Lemma sq_rel a L : exists f, (fmul (fmul a L) (fmul a L) == a * L * (a * L) * f)%Q /\ factor (32#10) f.
Proof.
  destruct (fmul_rel N a L) as (f & e & F). set (h := fmul a L) in *. clearbody h.
  destruct (fmul_rel N h h) as (g & e' & G). exists (f * f * g)%Q. split; [rewrite e', e; ring|].
  assert (F2 : factor (21#10) (f * f)) by (eapply factor_le; [|apply (factor_mul 1 1); [| |exact F|exact F]]; lra).
  eapply factor_le; [|apply (factor_mul (21#10) 1); [| |exact F2|exact G]]; lra.
Qed.

Lemma half_value a b L0 L1 :
  let z := fadd (fmul (fmul a L0) (fmul a L0)) (fmul (fmul b L1) (fmul b L1)) in
  let q := (a * L0 * (a * L0) + b * L1 * (b * L1))%Q in
  ((99#100) * q <= z /\ z <= (101#100) * q)%Q.
Proof.
  destruct (sq_rel a L0) as (f & Ef & Ff). destruct (sq_rel b L1) as (g & Eg & Fg).
  set (t0 := fmul (fmul a L0) _) in *. set (t1 := fmul (fmul b L1) _) in *. clearbody t0 t1. cbn zeta.
  destruct (fadd_rel N t0 t1) as (h & Eh & Fh). rewrite Eh, Ef, Eg.
  assert (EQ : forall x y : Q, ((x * f + y * g) * h == x * (f * h) + y * (g * h))%Q) by (intros; ring). rewrite EQ.
  pose proof (square_nonneg (a * L0)) as P0. pose proof (square_nonneg (b * L1)) as P1.
  assert (FF : factor 7 (f * h)) by (eapply factor_le; [|apply (factor_mul (32#10) 1); [| |exact Ff|exact Fh]]; lra).
  assert (FG : factor 7 (g * h)) by (eapply factor_le; [|apply (factor_mul (32#10) 1); [| |exact Fg|exact Fh]]; lra).
  destruct (factor_sum 7 _ _ _ _ P0 P1 FF FG) as [S1 S2].
  set (u := (a * L0 * (a * L0))%Q) in *. set (v := (b * L1 * (b * L1))%Q) in *. clearbody u v. unfold ulp in *. split; lra.
Qed.

(** Bounds of one half width of the window, for axes between lo and hi. *)
Lemma half_bounds sqr a b L0 L1 lo hi : sqrt_approx sqr -> (9#10 <= a * a + b * b)%Q -> (a * a + b * b <= 11#10)%Q ->
  (0 <= lo)%Q -> (lo <= L0)%Q -> (lo <= L1)%Q -> (L0 <= hi)%Q -> (L1 <= hi)%Q ->
  let h := sqr (fadd (fmul (fmul a L0) (fmul a L0)) (fmul (fmul b L1) (fmul b L1))) in
  (0 <= h /\ (a * L0 * (a * L0) + b * L1 * (b * L1)) * (8#10) <= h * h /\ (8#10) * lo <= h /\ h <= (6#5) * hi)%Q.
Proof.
  intros SQ N1 N2 P0 A0 A1 B0 B1. destruct (half_value a b L0 L1) as [V1 V2]. cbn zeta in V1, V2 |- *.
  set (z := fadd _ _) in *. clearbody z. pose proof (square_nonneg a) as Sa. pose proof (square_nonneg b) as Sb.
  assert (EQ : (a * L0 * (a * L0) + b * L1 * (b * L1) == a * a * (L0 * L0) + b * b * (L1 * L1))%Q) by ring.
  rewrite EQ in *. 
  assert (G0 : (lo * lo <= L0 * L0 /\ L0 * L0 <= hi * hi)%Q) by (split; apply square_mono; lra).
  assert (G1 : (lo * lo <= L1 * L1 /\ L1 * L1 <= hi * hi)%Q) by (split; apply square_mono; lra).
  assert (Q0 : (0 <= lo * lo)%Q) by apply square_nonneg.
  assert (M1 : (a * a * (lo * lo) <= a * a * (L0 * L0) /\ a * a * (L0 * L0) <= a * a * (hi * hi))%Q)
    by (rewrite !(Qmult_comm (a * a)); split; apply Qmult_le_compat_r; tauto).
  assert (M2 : (b * b * (lo * lo) <= b * b * (L1 * L1) /\ b * b * (L1 * L1) <= b * b * (hi * hi))%Q)
    by (rewrite !(Qmult_comm (b * b)); split; apply Qmult_le_compat_r; tauto).
  assert (M3 : ((9#10) * (lo * lo) <= (a * a + b * b) * (lo * lo))%Q) by (apply Qmult_le_compat_r; auto).
  assert (M4 : ((a * a + b * b) * (hi * hi) <= (11#10) * (hi * hi))%Q) by (apply Qmult_le_compat_r; [auto|apply square_nonneg]).
  rewrite Qmult_plus_distr_l in M3, M4.
  set (al := (a * a * (lo * lo))%Q) in *. set (bl := (b * b * (lo * lo))%Q) in *. set (ah := (a * a * (hi * hi))%Q) in *. set (bh := (b * b * (hi * hi))%Q) in *.
  set (u := (a * a * (L0 * L0))%Q) in *. set (v := (b * b * (L1 * L1))%Q) in *. set (ll := (lo * lo)%Q) in *. set (hh := (hi * hi)%Q) in *.
  assert (Z0 : (0 <= z)%Q) by lra. destruct (SQ z Z0) as (S0 & S1 & S2). set (h := sqr z) in *. clearbody h.
  split; auto. split; [lra|]. split.
  - apply square_le; auto. setoid_replace ((8#10) * lo * ((8#10) * lo))%Q with ((64#100) * ll)%Q by (unfold ll; ring). lra.
  - apply square_le; [lra|]. setoid_replace ((6#5) * hi * ((6#5) * hi))%Q with ((36#25) * hh)%Q by (unfold hh; ring).
    pose proof (square_nonneg hi) as Hh0. fold hh in Hh0. lra.
Qed.
End Half.

Section Shape.
Context {E : Env} (N : Near E).
Context (W : Z) (HW : W <= 2 ^ 44).
Notation d m := (ulp * (inject_Z W * resn m))%Q.

Lemma centre_bounds m i : dgeo W m -> in_range (size m) i ->
  (Qabs (fst (centre m i)) <= inject_Z W * resn m /\ Qabs (snd (centre m i)) <= inject_Z W * resn m)%Q.
Proof.
  intros G Hi. pose proof (d_res _ _ G) as Hr. destruct (d_size _ _ G) as [M0 M1]. destruct (world_range W m i G) as [I0 I1].
  destruct (axis_hyps _ _ _ _ W Hr M0 (d_len0 _ _ G) (d_far0 _ _ G)) as (a1 & a2 & a3 & a4 & a5).
  destruct (axis_hyps _ _ _ _ W Hr M1 (d_len1 _ _ G) (d_far1 _ _ G)) as (b1 & b2 & b3 & b4 & b5).
  destruct (axis_basic _ _ _ _ _ Hr a1 a2 a3 a4 a5) as (A1 & A2 & A3 & A4 & A5 & A6 & A7 & A8 & A9 & A10 & A11).
  destruct (axis_basic _ _ _ _ _ Hr b1 b2 b3 b4 b5) as (B1 & B2 & B3 & B4 & B5 & B6 & B7 & B8 & B9 & B10 & B11).
  destruct (centre_upper m i) as [C0 C1]. rewrite C0, C1. unfold upper. cbn [fst snd].
  assert (K : forall k n, 0 <= k < n -> (0 <= inject_Z k * resn m /\ inject_Z k * resn m + resn m <= inject_Z n * resn m)%Q).
  { intros k n [K1 K2]. split.
    - apply Qmult_le_0_compat; [|lra]. change 0%Q with (inject_Z 0). rewrite <- Zle_Qle. lia.
    - setoid_replace (inject_Z k * resn m + resn m)%Q with ((inject_Z k + 1) * resn m)%Q by ring. apply Qmult_le_compat_r; [|lra].
      change 1%Q with (inject_Z 1). rewrite <- inject_Z_plus, <- Zle_Qle. lia. }
  destruct (K _ _ I0) as [K1 K2]. destruct (K _ _ I1) as [K3 K4]. rewrite !Qmult_plus_distr_l.
  assert (E0 : (fst (len m) / 2 == (1#2) * fst (len m))%Q) by field. assert (E1 : (snd (len m) / 2 == (1#2) * snd (len m))%Q) by field.
  rewrite E0, E1. 
  pose proof (small_A W m HW Hr) as SU.
  set (A := (inject_Z W * resn m)%Q) in *. set (n0 := (inject_Z (fst (size m)) * resn m)%Q) in *.
  set (n1 := (inject_Z (snd (size m)) * resn m)%Q) in *. set (k0 := (inject_Z (fst (world_index m i)) * resn m)%Q) in *.
  set (k1 := (inject_Z (snd (world_index m i)) * resn m)%Q) in *. set (dd := (ulp * A)%Q) in *. clearbody n0 n1 k0 k1.
  split; apply Qabs_Qle_condition; split; lra.
Qed.

Lemma ellipse_double sqr m c L cs sn M tau : sqrt_approx sqr -> dgeo W m -> (0 < fst L)%Q -> (0 < snd L)%Q -> (fst L <= M)%Q -> (snd L <= M)%Q ->
  (9#10 <= cs * cs + sn * sn)%Q -> (cs * cs + sn * sn <= 11#10)%Q -> (0 < tau)%Q -> (tau < 1)%Q ->
  (10 * blur W m <= tau * fst L)%Q -> (10 * blur W m <= tau * snd L)%Q ->
  inside_by (- (2 * blur W m)) m (fst c + (6#5) * M, snd c + (6#5) * M)%Q ->
  inside_by (- (2 * blur W m)) m (fst c - (6#5) * M, snd c - (6#5) * M)%Q ->
  exists vs, ellipse_visits sqr m c L cs sn = Ok vs /\ NoDup vs /\
    (forall i, In i vs -> in_range (size m) i /\ in_ellipse c (scaled (1 + tau) L) cs sn (centre m i)) /\
    (start m = (0, 0) -> forall i, in_range (size m) i -> in_ellipse c (scaled (1 - tau) L) cs sn (centre m i) -> In i vs).
Proof.
  intros SQ G P0 P1 LM0 LM1 N1 N2 T0 T1 B0 B1 It Ib. pose proof (blur_eq W m) as EB. pose proof (two_ulp W m G) as D0.
  destruct (inside_bounds W m _ G It) as [X0 X1]. destruct (inside_bounds W m _ G Ib) as [Y0 Y1]. cbn [fst snd] in *.
  assert (MA : (M <= inject_Z W * resn m)%Q) by (apply Qabs_Qle_condition in X0 as [? ?], Y0 as [? ?]; lra).
  assert (CA : (Qabs (fst c) <= inject_Z W * resn m /\ Qabs (snd c) <= inject_Z W * resn m)%Q).
  { apply Qabs_Qle_condition in X0 as [? ?], X1 as [? ?], Y0 as [? ?], Y1 as [? ?]. split; apply Qabs_Qle_condition; split; lra. }
  unfold ellipse_visits, ellipse_window. cbn [fst snd].
  assert (LO : (160 * d m <= fst L /\ 160 * d m <= snd L)%Q).
  { assert (tau * fst L <= 1 * fst L)%Q by (apply Qmult_le_compat_r; lra). assert (tau * snd L <= 1 * snd L)%Q by (apply Qmult_le_compat_r; lra). split; lra. }
  destruct LO as [LO0 LO1].
  assert (Nx1 : (9#10 <= cs * cs + - sn * - sn)%Q) by (setoid_replace (- sn * - sn)%Q with (sn * sn)%Q by ring; auto).
  assert (Nx2 : (cs * cs + - sn * - sn <= 11#10)%Q) by (setoid_replace (- sn * - sn)%Q with (sn * sn)%Q by ring; auto).
  destruct (half_bounds N sqr cs (- sn) (fst L) (snd L) (160 * d m) M SQ Nx1 Nx2) as (H0 & H1 & H2 & H3); auto; [lra|].
  assert (Ny1 : (9#10 <= sn * sn + cs * cs)%Q) by lra. assert (Ny2 : (sn * sn + cs * cs <= 11#10)%Q) by lra.
  destruct (half_bounds N sqr sn cs (fst L) (snd L) (160 * d m) M SQ Ny1 Ny2) as (K0 & K1 & K2 & K3); auto; [lra|].
  set (hx := sqr (fadd (fmul (fmul cs (fst L)) _) _)) in *. set (hy := sqr (fadd (fmul (fmul sn (fst L)) _) _)) in *. clearbody hx hy.
  set (f := fun i => match ellipse_inside m c L cs sn i with Ok b => b | _ => false end).
  assert (TEST : forall i, in_range (size m) i -> ellipse_inside m c L cs sn i = Ok (f i) /\
    (f i = true -> in_ellipse c (scaled (1 + tau) L) cs sn (centre m i)) /\ (in_ellipse c (scaled (1 - tau) L) cs sn (centre m i) -> f i = true)).
  { intros i Hi. destruct (position_close N W HW m i G Hi) as (p & Hp & C0 & C1). rewrite EB in C0, C1.
    destruct (centre_bounds m i G Hi) as [Q0 Q1]. destruct CA as [CA0 CA1].
    unfold f, ellipse_inside, position_or_uninit. rewrite Hp. cbn [rbind]. split; auto.
    apply (ellipse_test N c L cs sn p (centre m i) (inject_Z W * resn m) tau); auto; try lra.
    - apply Qabs_Qle_condition in Q0 as [? ?], CA0 as [? ?]. apply Qabs_Qle_condition. split; lra.
    - apply Qabs_Qle_condition in Q1 as [? ?], CA1 as [? ?]. apply Qabs_Qle_condition. split; lra. }
  assert (Ip : inside_by (- (2 * blur W m)) m (fst c + hx, snd c + hy)%Q).
  { destruct It as (? & ? & ? & ?). destruct Ib as (? & ? & ? & ?). cbn [fst snd] in *. split; [|split; [|split]]; cbn [fst snd]; lra. }
  assert (Iq : inside_by (- (2 * blur W m)) m (fst c - hx, snd c - hy)%Q).
  { destruct It as (? & ? & ? & ?). destruct Ib as (? & ? & ? & ?). cbn [fst snd] in *. split; [|split; [|split]]; cbn [fst snd]; lra. }
  destruct (inside_bounds W m _ G Ip) as [Z0 Z1]. destruct (inside_bounds W m _ G Iq) as [V0 V1]. cbn [fst snd] in *.
  destruct (box_naive N W HW m (fadd (fst c) hx, fadd (snd c) hy) (fsub (fst c) hx, fsub (snd c) hy) (fst c + hx, snd c + hy)%Q (fst c - hx, snd c - hy)%Q
     (ellipse_inside m c L cs sn) f G) as (vs & V & ND & U1 & U2); auto.
  - split; cbn [fst snd]; apply (rnd_close N W m); auto.
  - split; cbn [fst snd]; apply (rnd_close N W m); auto.
  - cbn [fst snd]. lra.
  - cbn [fst snd]. lra.
  - intros i Hi. now apply TEST.
  - exists vs. split; [exact V|]. split; auto. split.
    + intros i Hi. destruct (U1 i Hi) as [Ri Fi]. split; auto. now apply TEST.
    + intros S i Ri C. apply U2; auto; [|now apply TEST]. pose proof (d_res _ _ G) as Hr.
      unfold in_ellipse, scaled in C. cbn [fst snd] in C.
      assert (TT : (0 < (1 - tau) * fst L /\ 0 < (1 - tau) * snd L)%Q) by (split; apply Qmult_lt_0_compat; lra). destruct TT as [TT0 TT1].
      assert (SH : forall a b h, ((a * fst L * (a * fst L) + b * snd L * (b * snd L)) * (8#10) <= h * h ->
        (a * ((1 - tau) * fst L) * (a * ((1 - tau) * fst L)) + b * ((1 - tau) * snd L) * (b * ((1 - tau) * snd L))) * (8#10) <= h * h)%Q).
      { intros a b h Hh. eapply Qle_trans; [|exact Hh].
        setoid_replace (a * ((1 - tau) * fst L) * (a * ((1 - tau) * fst L)) + b * ((1 - tau) * snd L) * (b * ((1 - tau) * snd L)))%Q
          with ((1 - tau) * (1 - tau) * (a * fst L * (a * fst L) + b * snd L * (b * snd L)))%Q by ring.
        apply Qmult_le_compat_r; [|discriminate].
        assert ((1 - tau) * (1 - tau) <= 1 * 1)%Q by (apply square_mono; lra).
        setoid_replace (a * fst L * (a * fst L) + b * snd L * (b * snd L))%Q with (1 * 1 * (a * fst L * (a * fst L) + b * snd L * (b * snd L)))%Q at 2 by ring.
        apply Qmult_le_compat_r; auto. pose proof (square_nonneg (a * fst L)). pose proof (square_nonneg (b * snd L)). lra. }
      assert (H1' : ((cs * fst L * (cs * fst L) + sn * snd L * (sn * snd L)) * (8#10) <= hx * hx)%Q).
      { eapply Qle_trans; [|exact H1]. apply Qle_lteq. right. ring. }
      destruct (in_ellipse_axis _ _ cs sn (fst (centre m i) - fst c) (snd (centre m i) - snd c) hx TT0 TT1 N1 C H0 (SH _ _ _ H1')) as [J1 J2].
      assert (C' : ((sn * (snd (centre m i) - snd c) + cs * (fst (centre m i) - fst c)) * (sn * (snd (centre m i) - snd c) + cs * (fst (centre m i) - fst c)) /
           ((1 - tau) * fst L / 2 * ((1 - tau) * fst L / 2)) +
         (cs * (snd (centre m i) - snd c) - sn * (fst (centre m i) - fst c)) * (cs * (snd (centre m i) - snd c) - sn * (fst (centre m i) - fst c)) /
           ((1 - tau) * snd L / 2 * ((1 - tau) * snd L / 2)) <= 1)%Q).
      { eapply Qle_trans; [|exact C]. apply Qle_lteq. right. field. repeat split; lra. }
      destruct (in_ellipse_axis _ _ sn cs (snd (centre m i) - snd c) (fst (centre m i) - fst c) hy TT0 TT1 Ny1 C' K0 (SH _ _ _ K1)) as [J3 J4].
      unfold in_box. cbn [fst snd]. split; [lra|]. split; [lra|]. split; lra.
Qed.
End Shape.
