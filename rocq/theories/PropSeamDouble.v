(** Property C71: circles on moved maps in double arithmetic, as in PropSeam.v. *)
From Coq Require Import ZArith QArith Qabs Lqa String List Bool Lia.
From Verif Require Import Base BaseLemmas Mat GridMapMath GridIter CostMap Iterators Spec GeoLemmas IterProofs FilterProofs FloatLemmas DoubleSpec DoubleGeo DoubleMap DoubleShape DoubleEllipse PropNegative PropSeam Samples PropDouble.
Import ListNotations.
Open Scope Z_scope.

Section SeamDouble.
Context {E : Env} (N : Near E).
Context (W : Z) (HW : W <= 2 ^ 44).

Notation d m := (ulp * (inject_Z W * resn m))%Q.

Lemma corner_close m x p : dgeo W m -> close (2 * d m) x p -> inside_by (- (2 * blur W m)) m p ->
  in_range (size m) (corner_index m x) /\ close (resn m / 2 + blur W m) p (centre m (corner_index m x)).
Proof.
  intros G C I. destruct (corner_double N W HW m x p G C I) as (RI & A1 & A2 & A3 & A4). split; [exact RI|].
  destruct (centre_upper m (corner_index m x)) as [C0 C1]. pose proof (blur_eq W m) as EB. pose proof (two_ulp W m G) as D0.
  assert (H2 : (resn m / 2 == (1#2) * resn m)%Q) by field.
  assert (T : forall a, ((inject_Z a + 1) * resn m == inject_Z a * resn m + resn m)%Q) by (intros; ring).
  assert (T2 : forall a, ((inject_Z a + (1#2)) * resn m == inject_Z a * resn m + (1#2) * resn m)%Q) by (intros; ring).
  rewrite T in A2, A4. rewrite T2 in C0, C1. set (dd := d m) in *. clearbody dd.
  unfold close. rewrite H2, EB, C0, C1. split; apply Qabs_Qle_condition; split; lra.
Qed.

Lemma seam_double m xt xb pt pb ins f : dgeo W m -> close (2 * d m) xt pt -> close (2 * d m) xb pb ->
  inside_by (- (2 * blur W m)) m pt -> inside_by (- (2 * blur W m)) m pb ->
  (forall i, in_range (size m) i -> ins i = Ok (f i)) ->
  let s := corner_index m xt in let e := corner_index m xb in
  exists vs, filt_visits ins (size m) (start m) s (fst e - fst s + 1, snd e - snd s + 1) = Ok vs /\ NoDup vs /\
    (forall i, In i vs -> in_range (size m) i /\ f i = true) /\
    (off_seam s e -> forall i, in_range (size m) i -> in_box m pt pb (centre m i) -> f i = true -> In i vs) /\
    (~ off_seam s e -> forall i, In i vs <-> i = s /\ f i = true).
Proof.
  intros G Ct Cb It Ib HI s e. destruct (box_corners N W HW m xt xb pt pb G Ct Cb It Ib) as (Rs & Re & _ & _ & K).
  fold s in Rs, K. fold e in Re, K.
  destruct (rectangle ins f (size m) (start m) s e (d_start _ _ G) Rs Re HI) as (vs & V & ND & I). unfold naive_size in V.
  exists vs. split; [exact V|]. split; [exact ND|]. pose proof (d_start _ _ G) as [S0 S1]. split; [|split].
  - intros i Hi. apply I in Hi as [F [->|[K0 K1]]]; [auto|]. split; [|exact F]. destruct Rs, Re. split; lia.
  - intros [O0 O1] i Ri B F. apply I. split; [exact F|]. right. destruct (K i Ri B) as [K0 K1]. destruct Rs, Re, Ri. unfold world_index in K0, K1. cbn [fst snd] in K0, K1.
    split; [apply (seam_axis (fst (size m)) (fst (start m)))|apply (seam_axis (snd (size m)) (snd (start m)))]; auto.
  - intros OS i. rewrite I. split.
    + intros [F [->|[K0 K1]]]; [auto|]. exfalso. apply OS. unfold off_seam. lia.
    + intros [-> F]. auto.
Qed.
End SeamDouble.

(** The cells [s] and [e] of the corners of the box, up to a blur; off the seam the
    circle is visited as on a map that was not moved, over the seam at most [s]. *)
Theorem C71_circle_seam : forall (E : Env), real_or_double E -> forall W m c R, W <= 2 ^ 44 -> dgeo W m -> (2 * blur W m <= R)%Q ->
  inside_by (- (2 * blur W m)) m (fst c + R, snd c + R)%Q -> inside_by (- (2 * blur W m)) m (fst c - R, snd c - R)%Q ->
  exists s e vs, in_range (size m) s /\ close (resn m / 2 + blur W m) (fst c + R, snd c + R)%Q (centre m s) /\
    in_range (size m) e /\ close (resn m / 2 + blur W m) (fst c - R, snd c - R)%Q (centre m e) /\
    circle_visits m c R = Ok vs /\ NoDup vs /\
    (forall i, In i vs -> in_range (size m) i /\ in_circle c (R + 2 * blur W m) (centre m i)) /\
    (off_seam s e -> forall i, in_range (size m) i -> in_circle c (R - 2 * blur W m) (centre m i) -> In i vs) /\
    (~ off_seam s e -> (forall i, In i vs -> i = s) /\ (in_circle c (R - 2 * blur W m) (centre m s) -> In s vs)).
Proof.
  intros E RD W m c R HW G HR It Ib. pose proof (near_real E RD) as N. pose proof (blur_eq W m) as EB. pose proof (two_ulp W m G) as D0.
  destruct (inside_bounds W m _ G It) as [T0 T1]. destruct (inside_bounds W m _ G Ib) as [U0 U1]. cbn [fst snd] in *.
  assert (RA : (R <= inject_Z W * resn m)%Q).
  { apply Qabs_Qle_condition in T0 as [? ?], U0 as [? ?]. lra. }
  unfold circle_visits, circle_window.
  set (f := fun i => match circle_inside m c R i with Ok b => b | _ => false end).
  assert (EB2 : (2 * blur W m == 32 * (ulp * (inject_Z W * resn m)))%Q) by (rewrite EB; ring).
  assert (TEST : forall i, in_range (size m) i -> circle_inside m c R i = Ok (f i) /\
    (f i = true -> in_circle c (R + 2 * blur W m) (centre m i)) /\ (in_circle c (R - 2 * blur W m) (centre m i) -> f i = true)).
  { intros i Hi. destruct (position_close N W HW m i G Hi) as (p & Hp & C0 & C1). rewrite EB in C0, C1.
    unfold f, circle_inside, position_or_uninit. rewrite Hp. cbn [rbind]. split; auto.
    destruct (circle_test N c R p (centre m i) (inject_Z W * resn m) ltac:(lra) RA C0 C1) as [K1 K2].
    unfold in_circle in *. rewrite EB2. split; [exact K1|]. apply K2. lra. }
  assert (Ct : close (2 * (ulp * (inject_Z W * resn m))) (fadd (fst c) R, fadd (snd c) R) (fst c + R, snd c + R)%Q).
  { split; cbn [fst snd]; apply (rnd_close N W m); auto. }
  assert (Cb : close (2 * (ulp * (inject_Z W * resn m))) (fsub (fst c) R, fsub (snd c) R) (fst c - R, snd c - R)%Q).
  { split; cbn [fst snd]; apply (rnd_close N W m); auto. }
  destruct (corner_close N W HW m _ _ G Ct It) as [Rs Cs]. destruct (corner_close N W HW m _ _ G Cb Ib) as [Re Ce].
  destruct (seam_double N W HW m _ _ _ _ (circle_inside m c R) f G Ct Cb It Ib) as (vs & V & ND & V1 & V2 & V3).
  { intros i Hi. now apply TEST. }
  exists (corner_index m (fadd (fst c) R, fadd (snd c) R)), (corner_index m (fsub (fst c) R, fsub (snd c) R)), vs.
  split; [exact Rs|]. split; [exact Cs|]. split; [exact Re|]. split; [exact Ce|]. split; [exact V|]. split; [exact ND|]. split; [|split].
  - intros i Hi. destruct (V1 i Hi) as [Ri Fi]. split; auto. now apply TEST.
  - intros OS i Ri C. apply V2; auto; [|now apply TEST]. pose proof (d_res _ _ G) as Hr.
    assert (HR0 : (0 <= R - 2 * blur W m)%Q) by lra.
    destruct (in_circle_box _ _ _ HR0 C) as (X1 & X2 & X3 & X4). unfold in_box. cbn [fst snd].
    split; [lra|]. split; [lra|]. split; lra.
  - intros OS. split; [intros i Hi; now apply V3 in Hi|]. intros C. apply V3; auto. split; [reflexivity|now apply TEST].
Qed.
Print Assumptions C71_circle_seam.

(** The ellipse: [h] is half the box around it. *)
Theorem C71_ellipse_seam : forall (E : Env), real_or_double E -> forall sqr W m c L cs sn M tau, sqrt_approx sqr -> W <= 2 ^ 44 -> dgeo W m ->
  (0 < fst L)%Q -> (0 < snd L)%Q -> (fst L <= M)%Q -> (snd L <= M)%Q ->
  (9#10 <= cs * cs + sn * sn)%Q -> (cs * cs + sn * sn <= 11#10)%Q -> (0 < tau)%Q -> (tau < 1)%Q ->
  (10 * blur W m <= tau * fst L)%Q -> (10 * blur W m <= tau * snd L)%Q ->
  inside_by (- (2 * blur W m)) m (fst c + (6#5) * M, snd c + (6#5) * M)%Q ->
  inside_by (- (2 * blur W m)) m (fst c - (6#5) * M, snd c - (6#5) * M)%Q ->
  exists h s e vs, (0 <= fst h <= (6#5) * M)%Q /\ (0 <= snd h <= (6#5) * M)%Q /\
    in_range (size m) s /\ close (resn m / 2 + blur W m) (fst c + fst h, snd c + snd h)%Q (centre m s) /\
    in_range (size m) e /\ close (resn m / 2 + blur W m) (fst c - fst h, snd c - snd h)%Q (centre m e) /\
    ellipse_visits sqr m c L cs sn = Ok vs /\ NoDup vs /\
    (forall i, In i vs -> in_range (size m) i /\ in_ellipse c (scaled (1 + tau) L) cs sn (centre m i)) /\
    (off_seam s e -> forall i, in_range (size m) i -> in_ellipse c (scaled (1 - tau) L) cs sn (centre m i) -> In i vs) /\
    (~ off_seam s e -> (forall i, In i vs -> i = s) /\ (in_ellipse c (scaled (1 - tau) L) cs sn (centre m s) -> In s vs)).
Proof.
  intros E RD sqr W m c L cs sn M tau SQ HW G P0 P1 LM0 LM1 N1 N2 T0 T1 B0 B1 It Ib. pose proof (near_real E RD) as N. pose proof (blur_eq W m) as EB. pose proof (two_ulp W m G) as D0.
  destruct (inside_bounds W m _ G It) as [X0 X1]. destruct (inside_bounds W m _ G Ib) as [Y0 Y1]. cbn [fst snd] in *.
  assert (MA : (M <= inject_Z W * resn m)%Q) by (apply Qabs_Qle_condition in X0 as [? ?], Y0 as [? ?]; lra).
  assert (CA : (Qabs (fst c) <= inject_Z W * resn m /\ Qabs (snd c) <= inject_Z W * resn m)%Q).
  { apply Qabs_Qle_condition in X0 as [? ?], X1 as [? ?], Y0 as [? ?], Y1 as [? ?]. split; apply Qabs_Qle_condition; split; lra. }
  unfold ellipse_visits, ellipse_window. cbn [fst snd].
  assert (LO : (160 * (ulp * (inject_Z W * resn m)) <= fst L /\ 160 * (ulp * (inject_Z W * resn m)) <= snd L)%Q).
  { assert (tau * fst L <= 1 * fst L)%Q by (apply Qmult_le_compat_r; lra). assert (tau * snd L <= 1 * snd L)%Q by (apply Qmult_le_compat_r; lra). split; lra. }
  destruct LO as [LO0 LO1].
  assert (Nx1 : (9#10 <= cs * cs + - sn * - sn)%Q) by (setoid_replace (- sn * - sn)%Q with (sn * sn)%Q by ring; auto).
  assert (Nx2 : (cs * cs + - sn * - sn <= 11#10)%Q) by (setoid_replace (- sn * - sn)%Q with (sn * sn)%Q by ring; auto).
  destruct (half_bounds N sqr cs (- sn) (fst L) (snd L) (160 * (ulp * (inject_Z W * resn m))) M SQ Nx1 Nx2) as (H0 & H1 & H2 & H3); auto; [lra|].
  assert (Ny1 : (9#10 <= sn * sn + cs * cs)%Q) by lra. assert (Ny2 : (sn * sn + cs * cs <= 11#10)%Q) by lra.
  destruct (half_bounds N sqr sn cs (fst L) (snd L) (160 * (ulp * (inject_Z W * resn m))) M SQ Ny1 Ny2) as (K0 & K1 & K2 & K3); auto; [lra|].
  set (hx := sqr (fadd (fmul (fmul cs (fst L)) _) _)) in *. set (hy := sqr (fadd (fmul (fmul sn (fst L)) _) _)) in *. clearbody hx hy.
  set (f := fun i => match ellipse_inside m c L cs sn i with Ok b => b | _ => false end).
  assert (TEST : forall i, in_range (size m) i -> ellipse_inside m c L cs sn i = Ok (f i) /\
    (f i = true -> in_ellipse c (scaled (1 + tau) L) cs sn (centre m i)) /\ (in_ellipse c (scaled (1 - tau) L) cs sn (centre m i) -> f i = true)).
  { intros i Hi. destruct (position_close N W HW m i G Hi) as (p & Hp & C0 & C1). rewrite EB in C0, C1.
    destruct (centre_bounds W HW m i G Hi) as [Q0 Q1]. destruct CA as [CA0 CA1].
    unfold f, ellipse_inside, position_or_uninit. rewrite Hp. cbn [rbind]. split; auto.
    apply (ellipse_test N c L cs sn p (centre m i) (inject_Z W * resn m) tau); auto; try lra.
    - apply Qabs_Qle_condition in Q0 as [? ?], CA0 as [? ?]. apply Qabs_Qle_condition. split; lra.
    - apply Qabs_Qle_condition in Q1 as [? ?], CA1 as [? ?]. apply Qabs_Qle_condition. split; lra. }
  assert (Ip : inside_by (- (2 * blur W m)) m (fst c + hx, snd c + hy)%Q).
  { destruct It as (? & ? & ? & ?). destruct Ib as (? & ? & ? & ?). cbn [fst snd] in *. split; [|split; [|split]]; cbn [fst snd]; lra. }
  assert (Iq : inside_by (- (2 * blur W m)) m (fst c - hx, snd c - hy)%Q).
  { destruct It as (? & ? & ? & ?). destruct Ib as (? & ? & ? & ?). cbn [fst snd] in *. split; [|split; [|split]]; cbn [fst snd]; lra. }
  destruct (inside_bounds W m _ G Ip) as [Z0 Z1]. destruct (inside_bounds W m _ G Iq) as [V0 V1]. cbn [fst snd] in *.
  assert (Ct : close (2 * (ulp * (inject_Z W * resn m))) (fadd (fst c) hx, fadd (snd c) hy) (fst c + hx, snd c + hy)%Q).
  { split; cbn [fst snd]; apply (rnd_close N W m); auto. }
  assert (Cb : close (2 * (ulp * (inject_Z W * resn m))) (fsub (fst c) hx, fsub (snd c) hy) (fst c - hx, snd c - hy)%Q).
  { split; cbn [fst snd]; apply (rnd_close N W m); auto. }
  destruct (corner_close N W HW m _ _ G Ct Ip) as [Rs Cs]. destruct (corner_close N W HW m _ _ G Cb Iq) as [Re Ce].
  destruct (seam_double N W HW m _ _ _ _ (ellipse_inside m c L cs sn) f G Ct Cb Ip Iq) as (vs & V & ND & U1 & U2 & U3).
  { intros i Hi. now apply TEST. }
  exists (hx, hy), (corner_index m (fadd (fst c) hx, fadd (snd c) hy)), (corner_index m (fsub (fst c) hx, fsub (snd c) hy)), vs. cbn [fst snd].
  split; [lra|]. split; [lra|]. split; [exact Rs|]. split; [exact Cs|]. split; [exact Re|]. split; [exact Ce|]. split; [exact V|]. split; [exact ND|]. split; [|split].
    + intros i Hi. destruct (U1 i Hi) as [Ri Fi]. split; auto. now apply TEST.
    + intros OS i Ri C. apply (U2 OS); auto; [|now apply TEST]. pose proof (d_res _ _ G) as Hr.
      unfold in_ellipse, scaled in C. cbn [fst snd] in C.
      assert (TT : (0 < (1 - tau) * fst L /\ 0 < (1 - tau) * snd L)%Q) by (split; apply Qmult_lt_0_compat; lra). destruct TT as [TT0 TT1].
      assert (SH : forall a b h, ((a * fst L * (a * fst L) + b * snd L * (b * snd L)) * (8#10) <= h * h ->
        (a * ((1 - tau) * fst L) * (a * ((1 - tau) * fst L)) + b * ((1 - tau) * snd L) * (b * ((1 - tau) * snd L))) * (8#10) <= h * h)%Q).
      { intros a b h Hh. eapply Qle_trans; [|exact Hh].
        setoid_replace (a * ((1 - tau) * fst L) * (a * ((1 - tau) * fst L)) + b * ((1 - tau) * snd L) * (b * ((1 - tau) * snd L)))%Q
          with ((1 - tau) * (1 - tau) * (a * fst L * (a * fst L) + b * snd L * (b * snd L)))%Q by ring.
        apply Qmult_le_compat_r; [|discriminate].
        assert ((1 - tau) * (1 - tau) <= 1 * 1)%Q by (apply square_mono; lra).
        setoid_replace (a * fst L * (a * fst L) + b * snd L * (b * snd L))%Q with (1 * 1 * (a * fst L * (a * fst L) + b * snd L * (b * snd L)))%Q at 2 by ring.
        apply Qmult_le_compat_r; auto. pose proof (square_nonneg (a * fst L)). pose proof (square_nonneg (b * snd L)). lra. }
      assert (H1' : ((cs * fst L * (cs * fst L) + sn * snd L * (sn * snd L)) * (8#10) <= hx * hx)%Q).
      { eapply Qle_trans; [|exact H1]. apply Qle_lteq. right. ring. }
      destruct (in_ellipse_axis _ _ cs sn (fst (centre m i) - fst c) (snd (centre m i) - snd c) hx TT0 TT1 N1 C H0 (SH _ _ _ H1')) as [J1 J2].
      assert (C' : ((sn * (snd (centre m i) - snd c) + cs * (fst (centre m i) - fst c)) * (sn * (snd (centre m i) - snd c) + cs * (fst (centre m i) - fst c)) /
           ((1 - tau) * fst L / 2 * ((1 - tau) * fst L / 2)) +
         (cs * (snd (centre m i) - snd c) - sn * (fst (centre m i) - fst c)) * (cs * (snd (centre m i) - snd c) - sn * (fst (centre m i) - fst c)) /
           ((1 - tau) * snd L / 2 * ((1 - tau) * snd L / 2)) <= 1)%Q).
      { eapply Qle_trans; [|exact C]. apply Qle_lteq. right. field. repeat split; lra. }
      destruct (in_ellipse_axis _ _ sn cs (snd (centre m i) - snd c) (fst (centre m i) - fst c) hy TT0 TT1 Ny1 C' K0 (SH _ _ _ K1)) as [J3 J4].
      unfold in_box. cbn [fst snd]. split; [lra|]. split; [lra|]. split; lra.
    + intros OS. split; [intros i Hi; now apply U3 in Hi|]. intros C. apply U3; auto. split; [reflexivity|now apply TEST].
Qed.
Print Assumptions C71_ellipse_seam.

(** A map moved to start (6, 2): a circle off the seam, and one over it which misses
    the cell (2, 5) although its centre is well within the radius. *)
Example C71_seam_case : exists cv, dgeo 11 decimal' /\ start decimal' = (6, 2) /\ (2 * blur 11 decimal' <= tenths 2)%Q /\
  inside_by (- (2 * blur 11 decimal')) decimal' (tenths 3 + tenths 2, tenths 3 + tenths 2)%Q /\
  inside_by (- (2 * blur 11 decimal')) decimal' (tenths 3 - tenths 2, tenths 3 - tenths 2)%Q /\
  circle_visits (E := binary64 BWrap) decimal' (tenths 3, tenths 3) (tenths 2) = Ok cv /\ length cv = 5%nat /\
  inside_by (- (2 * blur 11 decimal')) decimal' (tenths 5 + tenths 2, tenths (-2) + tenths 2)%Q /\
  inside_by (- (2 * blur 11 decimal')) decimal' (tenths 5 - tenths 2, tenths (-2) - tenths 2)%Q /\
  circle_visits (E := binary64 BWrap) decimal' (tenths 5, tenths (-2)) (tenths 2) = Ok [] /\
  in_circle (tenths 5, tenths (-2)) (tenths 2 - 2 * blur 11 decimal') (centre decimal' (2, 5)).
Proof.
  eexists. split; [dgeo_vm|]. split; [vm_compute; reflexivity|]. do 3 (split; [vm_compute; intuition discriminate|]).
  split; [vm_compute; reflexivity|]. split; [reflexivity|]. do 2 (split; [vm_compute; intuition discriminate|]).
  split; [vm_compute; reflexivity|]. vm_compute. intuition discriminate.
Qed.
