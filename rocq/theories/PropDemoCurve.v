(** Property C76, continued: the costs of the demo in terms of the exponential of the
    reals. *)
From Coq Require Import ZArith QArith Qabs Qreals Reals Lia Lqa Lra.
From Verif Require Import Base BaseLemmas FloatLemmas CostMap Inflation Converter Demo Spec DoubleSpec PropDeflate PropExp.
Open Scope Z_scope.

(** Beyond 0.3 m they fall off as 252 e^(-5 (d - 0.3)), truncated. *)
Theorem C76_curve : forall (E : Env) h ex, real_or_double E -> exp_like ex -> accurate_exp ex ->
  forall d, (30001 # 100000 <= d)%Q -> let F := FEnv (rne 24) h in let c := (252 * exp (- (5 * (Q2R d - 3 / 10))))%R in
  (c - 1 - / 500 < IZR (demo_computer F ex d) <= c + / 500)%R.
Proof.
  intros E h ex X EL AC d Hd F c. pose proof (rne_error 24 (3#10) ltac:(lia)) as K. fold (rnd32 (3#10)) in K. fold demo_inscribed in K.
  assert (KU : (pow2 (- (24)) * Qabs (3 # 10) <= 1 # 10000000)%Q) by (vm_compute; discriminate).
  assert (I0 : (demo_inscribed <= 3000001 # 10000000)%Q) by (vm_compute; discriminate). assert (I1 : (2999999 # 10000000 <= demo_inscribed)%Q) by (vm_compute; discriminate). clear K KU.
  destruct (C44_value E F ex X) with (ir := demo_inscribed) (w := demo_rate) (d := d) as (v & RV & L & U); auto.
  - apply (proj1 C44_rounding 24). lia.
  - intros q. cbn [F f32]. change (1 # 16777216)%Q with (pow2 (- (24))). apply rne_error. lia.
  - Lqa.lra.
  - Lqa.lra.
  - unfold demo_computer. rewrite RV. assert (W : Q2R demo_rate = 5%R) by (rewrite (Qreals.Qeq_eqR demo_rate 5) by reflexivity; unfold Q2R; cbn; lra). rewrite W in L, U.
    apply Qle_Rle in Hd, I0, I1. assert (V1 : Q2R (30001 # 100000) = (30001 / 100000)%R) by (unfold Q2R; cbn; lra).
    assert (V2 : Q2R (3000001 # 10000000) = (3000001 / 10000000)%R) by (unfold Q2R; cbn; lra). assert (V3 : Q2R (2999999 # 10000000) = (2999999 / 10000000)%R) by (unfold Q2R; cbn; lra).
    rewrite V1 in Hd. rewrite V2 in I0. rewrite V3 in I1. set (i := Q2R demo_inscribed) in *. set (x := Q2R d) in *. clearbody i x.
    assert (S : forall a b, (0 <= a)%R -> (a <= b)%R -> (exp (- a) - (b - a) <= exp (- b) <= exp (- a))%R).
    { intros a b A AB. assert (EB : exp (- b) = (exp (- a) * exp (- (b - a)))%R) by (rewrite <- exp_plus; f_equal; ring).
      assert (P1 : forall t, (0 <= t -> exp (- t) <= 1)%R).
      { intros t T. rewrite <- exp_0. destruct (Req_dec t 0) as [->|Z]; [right; f_equal; lra|]. left. apply exp_increasing. lra. }
      assert (P2 : (1 - (b - a) <= exp (- (b - a)))%R).
      { destruct (Req_dec (- (b - a)) 0) as [Z|Z]; [rewrite Z, exp_0; lra|]. pose proof (exp_ineq1 _ Z). lra. }
      pose proof (P1 a A). pose proof (P1 (b - a)%R ltac:(lra)). pose proof (exp_pos (- a)). rewrite EB. split; nra. }
    unfold c. destruct (Rle_lt_dec i (3 / 10)) as [LE|LT].
    + destruct (S (5 * (x - 3 / 10))%R (5 * (x - i))%R ltac:(lra) ltac:(lra)). lra.
    + destruct (S (5 * (x - i))%R (5 * (x - 3 / 10))%R ltac:(lra) ltac:(lra)). lra.
Qed.
Print Assumptions C76_curve.

(** Half a metre from an obstacle, with an exponential for which this holds. *)
Example C76_curve_case : 82 <= demo_computer (E := binary64 BClamp) (FEnv (rne 24) (fun _ _ => 0%Q)) grid_exp (1#2) <= 126.
Proof.
  destruct (C76_curve (binary64 BClamp) (fun _ _ => 0%Q) grid_exp) with (d := (1#2)%Q) as [L U].
  - right. now exists BClamp.
  - apply grid_exp_ok.
  - apply grid_exp_ok.
  - discriminate.
  - assert (A : (5 * (Q2R (1 # 2) - 3 / 10) = 1)%R) by (unfold Q2R; cbn; lra). rewrite A in L, U.
    pose proof exp_le_3 as E3. pose proof (exp_ineq1 1 ltac:(lra)) as E2. assert (P : (exp (-1) * exp 1 = 1)%R) by (rewrite <- exp_plus; replace (-1 + 1)%R with 0%R by ring; apply exp_0).
    pose proof (exp_pos (-1)) as EP. change (- (1))%R with (-1)%R in L, U. set (a := exp (-1)) in *. set (b := exp 1) in *. clearbody a b.
    assert (/ 3 <= a)%R by nra. assert (a < / 2)%R by nra. set (v := demo_computer _ _ _) in *. clearbody v.
    split; [apply le_IZR; lra|]. assert (v < 127) as K by (apply lt_IZR; lra). lia.
Qed.
