(** Property C33 with rounding: lines between positions in doubles. *)
From Coq Require Import ZArith QArith Qround Qabs String List Bool Lia Lqa.
From Verif Require Import Base Mat GridMapMath GridIter CostMap Iterators Spec DoubleSpec BaseLemmas GeoLemmas CoreProofs FilterProofs LineProofs
  DoubleGeo DoubleMap DoubleShape LineDouble Samples PropWindow PropDouble.
Import ListNotations.
Open Scope Z_scope.

(** ** Specification *)

(** Within e of the lower border of the map, on either axis. *)
Definition at_edge (e : Q) (m : cmap) (p : vec) : Prop :=
  (Qabs (fst p - fst (lower m)) <= e)%Q \/ (Qabs (snd p - snd (lower m)) <= e)%Q.

(** Cell i covers a point of the segment from a to b, up to e; a itself, up to b0,
    if that is inside the map by b0. At the lower border the cell may be another. *)
Definition enters_by (b0 e : Q) (m : cmap) (a b : vec) (i : idx) : Prop :=
  (inside_by (- b0) m a /\ in_range (size m) i /\ close (resn m / 2 + b0) a (centre m i)) \/
  (~ inside_by (- b0) m a /\ exists t, (0 <= t /\ t < 1)%Q /\ inside_by e m (along a b t) /\
     (at_edge e m (along a b t) \/ (in_range (size m) i /\ close (resn m / 2 + e) (along a b t) (centre m i)))).

(** The coordinates of a point are at most W cells. *)
Definition within (W : Z) (m : cmap) (p : vec) : Prop :=
  (Qabs (fst p) <= inject_Z W * resn m /\ Qabs (snd p) <= inject_Z W * resn m)%Q.

Section D.
Context {E : Env} (N : Near E) (sqr : Q -> Q) (SQ : sqrt_approx sqr) (W : Z) (HW : 1 <= W <= 2 ^ 20).
Let HW4 : W <= 2 ^ 44. Proof. lia. Qed.

Lemma close_inside e e' m p q : close e p q -> inside_by e' m p -> inside_by (e' + e) m q.
Proof.
  intros [C0 C1] (A & B & C & D). apply Qabs_Qle_condition in C0. apply Qabs_Qle_condition in C1. unfold inside_by. lra.
Qed.

Lemma found m a b t p : dgeo W m -> isInside m p = true -> (0 <= t < 1)%Q -> close (drift W m) p (along a b t) ->
  (t == 0)%Q /\ p = a \/ isInside m a = false -> enters_by (blur W m) (drift W m + blur W m) m a b (snd (getIndex m p)).
Proof.
  intros G I T C HS. pose proof (d_res _ _ G) as Hr. pose proof (blur_pos W m ltac:(lia) Hr) as BP.
  assert (inside_dec : inside_by (- blur W m) m a \/ ~ inside_by (- blur W m) m a).
  { set (l := lower m). set (h := upper m). set (b0 := (- blur W m)%Q). unfold inside_by. fold l h. clearbody l h b0. clear.
    destruct (Qlt_le_dec (fst l - b0) (fst a)); [|right; lra]. destruct (Qlt_le_dec (fst h + b0) (fst a)); [right; lra|].
    destruct (Qlt_le_dec (snd l - b0) (snd a)); [|right; lra]. destruct (Qlt_le_dec (snd h + b0) (snd a)); [right; lra|]. left. lra. }
  destruct inside_dec as [IN|NI].
  - left. split; [exact IN|]. destruct HS as [[T0 ->]|HS]; [|rewrite (inside_down N W HW4 m a G IN) in HS; discriminate].
    destruct (index_close N W HW4 m a G I) as (i & GI & R & CC). { destruct IN as (A & _). lra. } { destruct IN as (_ & _ & A & _). lra. }
    rewrite GI. split; [exact R|exact CC].
  - right. split; [exact NI|]. exists t. split; [lra|]. pose proof (inside_up N W HW4 m p G I) as IU.
    pose proof (close_inside _ _ _ _ _ C IU) as IQ. split; [destruct IQ as (A & B & C1 & D); unfold inside_by; lra|].
    destruct C as [C0 C1]. set (q := along a b t) in *. destruct IU as (A1 & A2 & A3 & A4).
    apply Qabs_Qle_condition in C0. apply Qabs_Qle_condition in C1.
    destruct (Qlt_le_dec (fst (lower m) + blur W m) (fst p)) as [F0|F0]; [|left; left; apply Qabs_Qle_condition; split; lra].
    destruct (Qlt_le_dec (snd (lower m) + blur W m) (snd p)) as [F1|F1]; [|left; right; apply Qabs_Qle_condition; split; lra].
    right. destruct (index_close N W HW4 m p G I F0 F1) as (i & GI & R & [P0 P1]). rewrite GI. split; [exact R|].
    apply Qabs_Qle_condition in P0. apply Qabs_Qle_condition in P1. split; apply Qabs_Qle_condition; cbn [snd] in *; split; lra.
Qed.

Lemma limited_double m st en : dgeo W m -> (4 * dbl_eps <= resn m)%Q -> within W m st -> within W m en ->
  (veq st en \/ (resn m * resn m <= 25 * dist2 st en)%Q) ->
  let e := (drift W m + blur W m)%Q in
  exists J o, (forall fuel, (J <= fuel)%nat -> limited_index sqr m st en fuel = Ok o) /\
  match o with
  | Some i => enters_by (blur W m) e m st en i
  | None => ~ inside_by (- blur W m) m st /\
      forall t0 t1, (0 <= t0)%Q -> (t1 <= 1)%Q -> (t0 <= t1)%Q -> (6 * (resn m * resn m) <= (t1 - t0) * (t1 - t0) * dist2 st en)%Q ->
        ~ (forall t, (t0 <= t /\ t <= t1)%Q -> inside_by (- e) m (along st en t))
  end.
Proof.
  intros G HE [S0 S1] [E0 E1] HS e. pose proof (d_res _ _ G) as Hr. pose proof (blur_pos W m ltac:(lia) Hr) as BP.
  destruct (step_range N m HE) as [s1 s2]. assert (Hs : (0 < s_step m)%Q) by lra.
  assert (DS : (drift W m <= (1#64) * resn m)%Q) by (apply drift_small; [lia|lra]).
  assert (DP : (0 <= drift W m)%Q). { unfold drift. apply Qmult_le_0_compat; [|lra]. apply Qmult_le_0_compat; [discriminate|]. apply square_nonneg. }
  assert (along0 : forall t, (t == 0)%Q -> close (drift W m) st (along st en t)).
  { intros t T. unfold along. split; cbn [fst snd]; rewrite T.
    - setoid_replace (fst st - (fst st + 0 * (fst en - fst st)))%Q with 0%Q by ring. exact DP.
    - setoid_replace (snd st - (snd st + 0 * (snd en - snd st)))%Q with 0%Q by ring. exact DP. }
  assert (NOT : isInside m st = false -> ~ inside_by (- blur W m) m st).
  { intros I K. rewrite (inside_down N W HW4 m st G K) in I. discriminate. }
  unfold limited_index. destruct HS as [[V0 V1]|HS].
  - (* a segment without length *)
    set (dx := fsub (fst en) (fst st)). set (dy := fsub (snd en) (snd st)).
    assert (DX : (dx == 0)%Q). { unfold dx. destruct (fsub_rel N (fst en) (fst st)) as (f & -> & _). rewrite V0. ring. }
    assert (DY : (dy == 0)%Q). { unfold dy. destruct (fsub_rel N (snd en) (snd st)) as (f & -> & _). rewrite V1. ring. }
    cbv zeta. set (z := fadd (fmul dx dx) (fmul dy dy)).
    assert (Z0 : (z == 0)%Q).
    { unfold z. destruct (fadd_rel N (fmul dx dx) (fmul dy dy)) as (f & -> & _). destruct (fmul_rel N dx dx) as (g & -> & _).
      destruct (fmul_rel N dy dy) as (h & -> & _). rewrite DX, DY. ring. }
    assert (Qlt_bool 0 z = false) as ->. { destruct (Qlt_bool 0 z) eqn:K; [|reflexivity]. apply Qlt_bool_iff in K. lra. }
    assert (MV : forall a w, (w == 0)%Q -> (Qabs a <= inject_Z W * resn m)%Q -> (Qabs (fadd a (fmul (s_step m) w) - a) <= drift W m)%Q).
    { intros a w H0 Ha. destruct (fmul_rel N (s_step m) w) as (f & Ef & _). destruct (fadd_rel N a (fmul (s_step m) w)) as (g & Eg & Fg).
      rewrite Eg, Ef, H0. setoid_replace ((a + s_step m * 0 * f) * g - a)%Q with ((g - 1) * a)%Q by ring. rewrite Qabs_Qmult.
      assert (GG : (Qabs (g - 1) <= ulp)%Q) by (destruct Fg; apply Qabs_Qle_condition; split; lra).
      apply Qle_trans with (ulp * Qabs a)%Q; [apply Qmult_le_compat_r; [exact GG|apply Qabs_nonneg]|].
      apply Qle_trans with (ulp * (inject_Z W * resn m))%Q; [apply Qmult_le_l; [reflexivity|exact Ha]|]. rewrite drift_eq.
      set (U := (ulp * (inject_Z W * resn m))%Q). assert (HU : (0 <= U)%Q). { unfold U. apply Qmult_le_0_compat; [discriminate|]. eapply Qle_trans; [apply Qabs_nonneg|exact Ha]. }
      assert (W1 : (1 <= inject_Z W)%Q) by (change 1%Q with (inject_Z 1); rewrite <- Zle_Qle; lia).
      assert (0 <= (inject_Z W - 1) * U)%Q by (apply Qmult_le_0_compat; lra). lra. }
    destruct (limit_run sqr m en (dx, dy) 1 st) as [(j & J1 & J2 & _ & J3)|(j & J1 & J2 & J4 & J3)]; [lia| | |].
    + cbn [s_at]. set (p := s_next m (dx, dy) st). assert (C : close (drift W m) p st).
      { unfold p, s_next. split; cbn [fst snd]; now apply MV. }
      destruct (stop_test N sqr m en p st (drift W m) SQ Hs C) as [Y _]; [lra|]. apply Y. unfold dist2. rewrite V0, V1.
      setoid_replace ((fst en - fst en) * (fst en - fst en) + (snd en - snd en) * (snd en - snd en))%Q with 0%Q by ring.
      pose proof (square_nonneg (s_step m)). lra.
    + assert (j = 0%nat) as -> by lia. cbn [s_at] in *. exists 1%nat, (Some (snd (getIndex m st))). split; [exact J3|].
      apply (found m st en 0); auto; [lra|apply along0; reflexivity|left; split; reflexivity].
    + exists 1%nat, None. split; [exact J3|]. split; [apply NOT, (J4 0%nat); lia|]. intros t0 t1 _ _ _ K. exfalso.
      unfold dist2 in K. rewrite V0, V1 in K. assert (0 < resn m * resn m)%Q by (apply Qmult_lt_0_compat; auto). lra.
  - destruct (search_ok N sqr W m st en SQ HW Hr HE HS S0 S1 E0 E1) as (ZP & d & J & [Hu Hd ul uh JP JB JA]).
    set (dx := fsub (fst en) (fst st)) in *. set (dy := fsub (snd en) (snd st)) in *. cbv zeta. set (z := fadd (fmul dx dx) (fmul dy dy)) in *.
    assert (Qlt_bool 0 z = true) as -> by (now apply Qlt_bool_iff).
    set (u := sqr z) in *. set (dir := (fdiv dx u, fdiv dy u)) in *. clearbody u. clearbody dir. clear ZP z. clear dx dy.
    set (s := s_step m) in *. set (D2 := dist2 st en) in *.
    assert (Hd0 : (0 < d)%Q). { apply Qnot_le_lt. intros K. assert (0 <= (- d) * u)%Q by (apply Qmult_le_0_compat; lra). lra. }
    assert (ss : (0 < s * s)%Q) by (apply Qmult_lt_0_compat; auto). assert (uu : (0 < u * u)%Q) by (apply Qmult_lt_0_compat; auto).
    (* distance of the k-th sample from the end *)
    assert (DIST : forall k, let x := (u - inject_Z (Z.of_nat k) * s)%Q in
      (dist2 (along st en (inject_Z (Z.of_nat k) * d)) en * (u * u) == x * x * D2)%Q).
    { intros k x. unfold x. rewrite <- Hd. unfold D2, dist2, along. cbn [fst snd]. ring. }
    assert (STOP : forall k, (k <= J)%nat -> let x := (u - inject_Z (Z.of_nat k) * s)%Q in
      ((- ((82#100) * s) <= x)%Q -> (x <= (82#100) * s)%Q -> s_stop sqr m en (s_at m dir st k) = true) /\
      (((6#5) * s <= x)%Q -> s_stop sqr m en (s_at m dir st k) = false)).
    { intros k Hk x. pose proof (DIST k) as DK. fold x in DK. cbv zeta in DK.
      destruct (stop_test N sqr m en _ _ (drift W m) SQ Hs (JA k Hk)) as [Y1 Y2]; [fold s; lra|]. fold s in Y1, Y2.
      set (v := dist2 _ en) in *. assert (xx : (0 <= x * x)%Q) by apply square_nonneg. split.
      - intros X0 X1. apply Y1. assert (XS : (x * x <= (82#100) * s * ((82#100) * s))%Q).
        { rewrite <- (abs_sq x). apply square_mono; [apply Qabs_nonneg|]. apply Qabs_Qle_condition. split; lra. }
        apply (Qmult_le_r _ _ (u * u) uu). rewrite DK.
        assert (K1 : (x * x * ((899#1000) * D2) <= x * x * (u * u))%Q) by (rewrite !(Qmult_comm (x * x)); apply Qmult_le_compat_r; auto).
        assert (K2 : (x * x * (u * u) <= (82#100) * s * ((82#100) * s) * (u * u))%Q) by (apply Qmult_le_compat_r; lra).
        setoid_replace (x * x * ((899#1000) * D2))%Q with ((899#1000) * (x * x * D2))%Q in K1 by ring.
        setoid_replace ((82#100) * s * ((82#100) * s) * (u * u))%Q with ((6724#10000) * (s * s * (u * u)))%Q in K2 by ring.
        setoid_replace ((749#1000) * (s * s) * (u * u))%Q with ((749#1000) * (s * s * (u * u)))%Q by ring.
        assert (0 < s * s * (u * u))%Q by (apply Qmult_lt_0_compat; auto). lra.
      - intros X0. apply Y2. assert (XS : ((6#5) * s * ((6#5) * s) <= x * x)%Q) by (apply square_mono; lra).
        apply (Qmult_le_r _ _ (u * u) uu). rewrite DK.
        assert (K1 : (x * x * (u * u) <= x * x * ((1102#1000) * D2))%Q) by (rewrite !(Qmult_comm (x * x)); apply Qmult_le_compat_r; auto).
        assert (K2 : ((6#5) * s * ((6#5) * s) * (u * u) <= x * x * (u * u))%Q) by (apply Qmult_le_compat_r; lra).
        setoid_replace (x * x * ((1102#1000) * D2))%Q with ((1102#1000) * (x * x * D2))%Q in K1 by ring.
        setoid_replace ((6#5) * s * ((6#5) * s) * (u * u))%Q with ((36#25) * (s * s * (u * u)))%Q in K2 by ring.
        setoid_replace ((13#10) * (s * s) * (u * u))%Q with ((13#10) * (s * s * (u * u)))%Q by ring.
        assert (0 < s * s * (u * u))%Q by (apply Qmult_lt_0_compat; auto). lra. }
    assert (Pk : forall k, (0 <= inject_Z (Z.of_nat k))%Q) by (intros k; change 0%Q with (inject_Z 0); rewrite <- Zle_Qle; lia).
    destruct (limit_run sqr m en dir J st JP) as [(j & J1 & J2 & J4 & J3)|(j & J1 & J2 & J4 & J3)].
    + apply STOP; [lia| |]; apply JB.
    + exists J, (Some (snd (getIndex m (s_at m dir st j)))). split; [exact J3|].
      apply (found m st en (inject_Z (Z.of_nat j) * d)); auto.
      * split; [apply Qmult_le_0_compat; [apply Pk|lra]|]. apply Qnot_le_lt. intros K.
        assert (K1 : (0 <= (inject_Z (Z.of_nat j) * d - 1) * u)%Q) by (apply Qmult_le_0_compat; lra).
        setoid_replace ((inject_Z (Z.of_nat j) * d - 1) * u)%Q with (inject_Z (Z.of_nat j) * (d * u) - u)%Q in K1 by ring. rewrite Hd in K1.
        assert (K2 : (inject_Z (Z.of_nat j) + 1 <= inject_Z (Z.of_nat J))%Q). { change 1%Q with (inject_Z 1). rewrite <- inject_Z_plus, <- Zle_Qle. lia. }
        assert (K3 : (0 <= (inject_Z (Z.of_nat J) - inject_Z (Z.of_nat j) - 1) * s)%Q) by (apply Qmult_le_0_compat; lra). lra.
      * apply JA. lia.
      * destruct j as [|j]; [left; split; [reflexivity|reflexivity]|right]. apply (J4 0%nat). lia.
    + exists J, None. split; [exact J3|]. split; [apply NOT, (J4 0%nat); lia|]. intros t0 t1 T0 T1 TL T01 C.
      assert (DT : ((11#5) * d <= t1 - t0)%Q).
      { apply square_le; [lra|]. assert (dd : (0 < d * d)%Q) by (apply Qmult_lt_0_compat; auto).
        assert (ED : (d * d * (u * u) == s * s)%Q) by (rewrite <- Hd; ring).
        assert (SS : (s * s <= (1001#1000) * resn m * ((1001#1000) * resn m))%Q) by (apply square_mono; lra).
        apply Qnot_lt_le. intros K.
        assert (RR : (0 < resn m * resn m)%Q) by (apply Qmult_lt_0_compat; auto). assert (D0 : (0 < D2)%Q) by lra.
        assert (K1 : ((t1 - t0) * (t1 - t0) * D2 < (11#5) * d * ((11#5) * d) * D2)%Q) by (apply Qmult_lt_r; auto).
        assert (K2 : (d * d * ((899#1000) * D2) <= d * d * (u * u))%Q) by (apply Qmult_le_l; auto). rewrite ED in K2.
        setoid_replace ((11#5) * d * ((11#5) * d) * D2)%Q with ((121#25) * (d * d * D2))%Q in K1 by ring.
        setoid_replace (d * d * ((899#1000) * D2))%Q with ((899#1000) * (d * d * D2))%Q in K2 by ring. lra. }
      set (j0 := Z.to_nat (Qceiling (t0 / d))).
      assert (C1 : (t0 / d <= inject_Z (Qceiling (t0 / d)))%Q) by apply Qle_ceiling.
      assert (C2 : (inject_Z (Qceiling (t0 / d) - 1) < t0 / d)%Q) by apply Qceiling_lt.
      assert (CP : 0 <= Qceiling (t0 / d)). { change 0 with (Qceiling 0). apply Qceiling_resp_le. apply Qle_shift_div_l; lra. }
      assert (T3 : (t0 / d * d == t0)%Q) by (field; lra).
      unfold Z.sub in C2. rewrite inject_Z_plus in C2. change (inject_Z (Z.opp 1)) with (-1)%Q in C2.
      assert (Ej : Z.of_nat j0 = Qceiling (t0 / d)) by (unfold j0; now rewrite Z2Nat.id).
      rewrite <- Ej in C1, C2. clear CP. clearbody j0. set (q := (t0 / d)%Q) in *. clearbody q. pose proof (Pk j0) as P0. set (n := inject_Z (Z.of_nat j0)) in *.
      assert (Q1 : (0 <= (n - q) * d)%Q) by (apply Qmult_le_0_compat; lra). assert (Q2 : (0 <= (q + 1 - n) * d)%Q) by (apply Qmult_le_0_compat; lra).
      assert (Q3 : (0 <= (1 - n * d - (6#5) * d) * u)%Q) by (apply Qmult_le_0_compat; lra).
      setoid_replace ((1 - n * d - (6#5) * d) * u)%Q with (u - n * (d * u) - (6#5) * (d * u))%Q in Q3 by ring. rewrite Hd in Q3.
      assert (JJ : (j0 <= J)%nat).
      { destruct (Nat.le_gt_cases j0 J) as [K|K]; [exact K|exfalso].
        assert (K1 : (inject_Z (Z.of_nat J) <= n)%Q) by (unfold n; rewrite <- Zle_Qle; lia).
        assert (K2 : (0 <= (n - inject_Z (Z.of_nat J)) * s)%Q) by (apply Qmult_le_0_compat; lra). lra. }
      assert (jj : (j0 < j)%nat).
      { destruct (Nat.le_gt_cases j j0) as [K|K]; [exfalso|exact K]. 
        assert (K1 : (inject_Z (Z.of_nat j) <= n)%Q) by (unfold n; rewrite <- Zle_Qle; lia).
        assert (K2 : (0 <= (n - inject_Z (Z.of_nat j)) * s)%Q) by (apply Qmult_le_0_compat; lra).
        assert (K3 : s_stop sqr m en (s_at m dir st j) = false); [apply STOP; [lia|]; lra|congruence]. }
      specialize (J4 j0 jj). assert (CI : inside_by (- e) m (along st en (n * d))) by (apply C; lra).
      assert (I : isInside m (s_at m dir st j0) = true); [|congruence]. apply (inside_down N W HW4); [exact G|].
      destruct (JA j0 JJ) as [P1 P2]. fold n in P1, P2. apply Qabs_Qle_condition in P1. apply Qabs_Qle_condition in P2.
      destruct CI as (I0 & I1 & I2 & I3). unfold e in *. unfold inside_by. lra.
Qed.
End D.

(** C33 with rounding. Points and map lie within W cells of the origin, and the cells
    are larger than 2^-50. The iterator draws the line between the cells at which the
    segment, seen from either end, is found to enter the map, up to rounding; it is
    left uninitialised only if an end is not well inside, and the part of the segment
    well inside the map is shorter than sqrt 6 cells. Segments must not be
    shorter than a fifth of a cell. *)
Theorem C33_double : forall (E : Env), real_or_double E -> forall sqr, sqrt_approx sqr -> forall W m st en,
  1 <= W <= 2 ^ 20 -> dgeo W m -> (4 * dbl_eps <= resn m)%Q -> within W m st -> within W m en ->
  (veq st en \/ (resn m * resn m <= 25 * dist2 st en)%Q) ->
  let b := blur W m in let e := (128 * ulp * (inject_Z W * inject_Z W) * resn m + b)%Q in
  exists N r, (forall fuel, (N <= fuel)%nat -> line_visits_positions sqr m st en fuel = r) /\
  ((exists i j, r = line_visits i j /\ enters_by b e m st en i /\ enters_by b e m en st j) \/
   (r = Fault Uninit /\ (~ inside_by (- b) m st \/ ~ inside_by (- b) m en) /\
    forall t0 t1, (0 <= t0)%Q -> (t1 <= 1)%Q -> (t0 <= t1)%Q -> (6 * (resn m * resn m) <= (t1 - t0) * (t1 - t0) * dist2 st en)%Q ->
        ~ (forall t, (t0 <= t /\ t <= t1)%Q -> inside_by (- e) m (along st en t)))).
Proof.
  intros E X sqr SQ W m st en HW G HE IS IE HS b e. pose proof (near_real E X) as N.
  destruct (limited_double N sqr SQ W HW m st en G HE IS IE HS) as (N1 & o1 & L1 & S1).
  destruct (limited_double N sqr SQ W HW m en st G HE IE IS) as (N2 & o2 & L2 & S2).
  { destruct HS as [[A B]|HS]; [left; split; now symmetry|right]. now rewrite dist2_sym. }
  exists (Nat.max N1 N2).
  destruct o1 as [i|]; [destruct o2 as [j|]|].
  - exists (line_visits i j). split; [|left; eauto].
    intros fuel Hf. unfold line_visits_positions, line_new_positions. rewrite L1 by lia. cbn [rbind]. rewrite L2 by lia. reflexivity.
  - exists (Fault Uninit). split.
    + intros fuel Hf. unfold line_visits_positions, line_new_positions. rewrite L1 by lia. cbn [rbind]. rewrite L2 by lia. reflexivity.
    + right. split; [reflexivity|]. destruct S2 as [S2 S3]. split; [now right|]. intros t0 t1 A1 A2 A3 A4 C.
      apply (S3 (1 - t1)%Q (1 - t0)%Q); try lra.
      * rewrite dist2_sym. assert ((1 - t0 - (1 - t1)) == t1 - t0)%Q as -> by ring. exact A4.
      * intros t Ht. assert (I : inside_by (- e) m (along st en (1 - t))) by (apply C; lra).
        assert (V : veq (along st en (1 - t)) (along en st t)) by (unfold along; split; cbn; ring). destruct V as [V0 V1].
        unfold inside_by in *. rewrite V0, V1 in I. exact I.
  - exists (Fault Uninit). split.
    + intros fuel Hf. unfold line_visits_positions, line_new_positions. rewrite L1 by lia. reflexivity.
    + right. split; [reflexivity|]. destruct S1 as [S1 S3]. split; [now left|]. exact S3.
Qed.
Print Assumptions C33_double.

(** Both ends inside; one end 2 m outside. *)
Example C33_double_case : real_or_double (binary64 BWrap) /\ sqrt_approx qsqrt /\ dgeo 11 decimal /\ (4 * dbl_eps <= resn decimal)%Q /\
  within 11 decimal (tenths 1, tenths 3) /\ within 11 decimal (tenths 9, tenths (-1)) /\ within 11 decimal (tenths (-21), tenths 7) /\
  (resn decimal * resn decimal <= 25 * dist2 (tenths 1, tenths 3) (tenths 9, tenths (-1)))%Q /\
  line_visits_positions (E := binary64 BWrap) qsqrt decimal (tenths 1, tenths 3) (tenths 9, tenths (-1)) 30 =
    Ok [(4, 3); (3, 4); (2, 4); (1, 5); (0, 5)] /\
  line_visits_positions (E := binary64 BWrap) qsqrt decimal (tenths (-21), tenths 7) (tenths 9, tenths (-1)) 30 =
    Ok [(6, 3); (5, 3); (4, 4); (3, 4); (2, 4); (1, 5); (0, 5)].
Proof.
  split; [right; eexists; reflexivity|]. split; [exact qsqrt_ok|]. split; [dgeo_vm|].
  do 5 (split; [vm_compute; intuition discriminate|]). split; vm_compute; reflexivity.
Qed.

(** The clause on the lower border is needed: of an end on that border the cell at the
    other end of the map is taken, more than six cells away from it. *)
Theorem C33_border_refuted : exists st en i cells, dgeo 11 lapped /\ within 11 lapped st /\ within 11 lapped en /\
  line_visits_positions (E := binary64 BWrap) qsqrt lapped st en 30 = Ok (i :: cells) /\ in_range (size lapped) i /\
  (6 * resn lapped < fst (centre lapped i) - fst st)%Q /\
  (forall t, (0 <= t)%Q -> (t <= 1)%Q -> (4 * (resn lapped * resn lapped) < dist2 (centre lapped i) (along en st t)))%Q.
Proof.
  exists (-1#2, 0)%Q, (tenths 1, 0)%Q, (6, 3), [(5, 3); (4, 3); (3, 3)]. split; [constructor; vm_compute; intuition discriminate|].
  split; [vm_compute; intuition discriminate|]. split; [vm_compute; intuition discriminate|]. split; [vm_compute; reflexivity|].
  split; [vm_compute; intuition discriminate|]. split; [vm_compute; reflexivity|].
  intros t T0 T1. unfold dist2, along. cbn [fst snd].
  assert (C : ((7#10) < fst (centre lapped (6, 3)%Z))%Q) by (vm_compute; reflexivity). assert (R : (resn lapped < (201#1000))%Q) by (vm_compute; reflexivity).
  assert (R0 : (0 < resn lapped)%Q) by (vm_compute; reflexivity). assert (T : (tenths 1 < 101#1000)%Q) by (vm_compute; reflexivity). assert (T2 : (0 < tenths 1)%Q) by (vm_compute; reflexivity).
  set (c := fst (centre lapped (6, 3)%Z)) in *. set (c1 := snd (centre lapped (6, 3)%Z)). set (r := resn lapped) in *. set (w := tenths 1) in *. clearbody c c1 r w.
  assert (K : (w + t * ((-1#2) - w) <= 101#1000)%Q) by nra.
  set (x := (w + t * ((-1#2) - w))%Q) in *. clearbody x.
  assert (r * r < (201#1000) * (201#1000))%Q by nra. pose proof (square_nonneg (0 + t * (0 - 0) - c1)). nra.
Qed.
Print Assumptions C33_border_refuted.
