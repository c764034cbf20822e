(** Property C24 with rounding: linear interpolation in doubles. *)
From Coq Require Import ZArith QArith Qround Qabs String List Bool Lia Lqa.
From Verif Require Import Base Mat GridMapMath GridIter CostMap Spec DoubleSpec BaseLemmas CoreProofs CoreProofs2 DoubleMap InterpProofs Samples PropDouble PropInterp.
Import ListNotations.
Open Scope Z_scope.

Lemma far_axis n (W : Z) c r x L k : (0 < r)%Q -> 0 <= k < n -> (512 * (ulp * (inject_Z W * r)) <= r)%Q ->
  (Qabs (L - inject_Z n * r) <= ulp * (inject_Z n * r))%Q -> (Qabs c + inject_Z n * r <= inject_Z W * r)%Q ->
  forall b, (b <= (1 # 4) * r)%Q -> (Qabs (x - centre1 L c r k) <= b)%Q -> (Qabs x <= inject_Z W * r)%Q.
Proof.
  intros Hr Hk SA HL HF b HB HX. apply Qabs_Qle_condition in HL as [L0 L1]. apply Qabs_Qle_condition in HX as [X0 X1]. unfold centre1 in X0, X1.
  pose proof (Qle_Qabs c) as C0. pose proof (Qle_Qabs (- c)) as C1. rewrite Qabs_opp in C1. pose proof (Qabs_nonneg c) as C2.
  assert (HH : (L / 2 == (1 # 2) * L)%Q) by field. rewrite HH in *.
  assert (K0 : (0 <= inject_Z k * r)%Q). { apply Qmult_le_0_compat; [change 0%Q with (inject_Z 0); rewrite <- Zle_Qle; lia|lra]. }
  assert (K1 : (inject_Z k * r + r <= inject_Z n * r)%Q).
  { setoid_replace (inject_Z k * r + r)%Q with ((inject_Z k + inject_Z 1) * r)%Q by (change (inject_Z 1) with 1%Q; ring). rewrite <- inject_Z_plus.
    apply Qmult_le_compat_r; [|lra]. rewrite <- Zle_Qle. lia. }
  assert (UU : (512 * (ulp * (inject_Z n * r)) <= r)%Q).
  { eapply Qle_trans; [|exact SA]. apply Qmult_le_l; [reflexivity|]. apply Qmult_le_l; [reflexivity|]. lra. }
  set (u := (ulp * (inject_Z n * r))%Q) in *. set (nr := (inject_Z n * r)%Q) in *. set (wr := (inject_Z W * r)%Q) in *.
  setoid_replace ((inject_Z k + (1 # 2)) * r)%Q with (inject_Z k * r + (1 # 2) * r)%Q in X0 by ring.
  setoid_replace ((inject_Z k + (1 # 2)) * r)%Q with (inject_Z k * r + (1 # 2) * r)%Q in X1 by ring. set (kr := (inject_Z k * r)%Q) in *.
  clearbody u nr wr kr. clear SA. apply Qabs_Qle_condition. split; lra.
Qed.

Section D.
Context {E : Env} (R : real_or_double E).
Context (W : Z) (HW : W <= 2 ^ 44).

Lemma interp_double lin d m l p : (0 <= d)%Q -> (d <= 1 # 4)%Q -> accurate lin (resn m) (inject_Z W * resn m) d ->
  dgeo W m -> reg_ok m -> has_layer m l -> costs_ok m l -> start m = (0, 0) -> inside_by (- blur W m) m p ->
  exists i dx dy, in_range (size m) i /\ close (resn m / 2 + blur W m) p (centre m i) /\
  (dx = -1 /\ (fst (centre m i) - blur W m <= fst p)%Q \/ dx = 1 /\ (fst p <= fst (centre m i) + blur W m)%Q) /\
  (dy = -1 /\ (snd (centre m i) - blur W m <= snd p)%Q \/ dy = 1 /\ (snd p <= snd (centre m i) + blur W m)%Q) /\
  let square := [i; (fst i + dx, snd i); (fst i, snd i + dy); (fst i + dx, snd i + dy)] in
  let e := (d + (1 # 65536) + 65536 * ulp * inject_Z W)%Q in
  (Forall (in_range (size m)) square ->
   exists a b c k v, atPosition_interp lin m l p INTER_LINEAR = Ok v /\
     (forall j, In j square -> exists w, value_at m l j w /\
        (a + b * fst (centre m j) + c * snd (centre m j) + k * fst (centre m j) * snd (centre m j) == inject_Z w)%Q) /\
     (let B := a + b * fst p + c * snd p + k * fst p * snd p in inject_Z v <= B + e /\ B - e < inject_Z v + 1)%Q /\
     ((d <= 1 # 67108864)%Q ->
        (forall lo hi, (forall j w, In j square -> value_at m l j w -> lo <= w <= hi) -> lo <= v <= hi) /\
        (forall q, getPosition m i = Some q -> veq p q -> value_at m l i v))) /\
  (~ Forall (in_range (size m)) square ->
   exists v, atPosition_interp lin m l p INTER_LINEAR = Ok v /\ value_at m l i v).
Proof.
  intros D0 D1 AC G RO L CO S IN. pose proof (near_real E R) as N.
  pose proof (d_res _ _ G) as Hr. destruct (d_size _ _ G) as [Z0 Z1].
  assert (W1 : 1 <= W).
  { pose proof (d_far0 _ _ G) as F. pose proof (Qabs_nonneg (fst (pos m))). assert (A : (inject_Z (fst (size m)) * resn m <= inject_Z W * resn m)%Q) by lra.
    apply Qmult_le_r in A; auto. rewrite <- Zle_Qle in A. lia. }
  pose proof (blur_small W HW m G) as BS. pose proof (blur_pos W m ltac:(lia) Hr) as BP.
  assert (II : isInside m p = true) by (apply (inside_down N W HW); auto).
  destruct (index_close N W HW m p G II) as (i & GI & Hi & [CX CY]). { destruct IN as (A & _). lra. } { destruct IN as (_ & _ & A & _). lra. }
  destruct (axis_positions m) as (f & g & P). { apply G. }
  set (t := (16 * ulp * inject_Z W)%Q). assert (BT : blur W m = (t * resn m)%Q) by reflexivity.
  assert (T0 : (0 <= t)%Q). { apply Qmult_le_0_compat; [discriminate|]. change 0%Q with (inject_Z 0). rewrite <- Zle_Qle. lia. }
  assert (T1 : (t <= 1 # 8)%Q).
  { apply Qle_trans with (16 * ulp * inject_Z (2 ^ 44))%Q; [|discriminate]. apply Qmult_le_l; [reflexivity|]. now rewrite <- Zle_Qle. }
  assert (CL : forall j, in_range (size m) j -> (Qabs (f (fst j) - fst (centre m j)) <= t * resn m /\ Qabs (g (snd j) - snd (centre m j)) <= t * resn m /\
     Qabs (f (fst j)) <= inject_Z W * resn m /\ Qabs (g (snd j)) <= inject_Z W * resn m)%Q).
  { intros j Hj. destruct (position_close N W HW m j G Hj) as (q & Hq & [Q0 Q1]). rewrite (P j Hj) in Hq. injection Hq as <-. cbn [fst snd] in Q0, Q1.
    split; [exact Q0|]. split; [exact Q1|].
    pose proof (world_range W m j G) as [K0 K1]. pose proof (small_A W m HW Hr) as SA.
    split; [refine (far_axis _ _ (fst (pos m)) _ _ (fst (len m)) (fst (world_index m j)) Hr K0 SA (d_len0 _ _ G) (d_far0 _ _ G) (blur W m) BS Q0)
           |refine (far_axis _ _ (snd (pos m)) _ _ (snd (len m)) (snd (world_index m j)) Hr K1 SA (d_len1 _ _ G) (d_far1 _ _ G) (blur W m) BS Q1)]. }
  destruct (interp_tol lin d t (inject_Z W * resn m) m l p i f g P) as [YES NO]; auto.
  exists i, (side (f (fst i)) (fst p)), (side (g (snd i)) (snd p)).
  split; [exact Hi|]. split; [split; assumption|].
  assert (SD : forall x0 c x, (Qabs (x0 - c) <= t * resn m)%Q -> (side x0 x = -1 /\ (c - blur W m <= x)%Q \/ side x0 x = 1 /\ (x <= c + blur W m)%Q)).
  { intros x0 c x A. apply Qabs_Qle_condition in A as [A0 A1]. rewrite BT. destruct (side_cases x0 x) as [[S0 ->]|[S0 ->]]; [left|right]; split; auto; lra. }
  destruct (CL i Hi) as (F0 & G0 & _). split; [now apply SD|]. split; [now apply SD|]. intros square0 e.
  change (square i (side (f (fst i)) (fst p)) (side (g (snd i)) (snd p))) with square0 in YES, NO.
  split; [|exact NO]. intros FS. destruct (YES FS) as (a & b & c & k & v & H1 & H2 & [H3 H4] & H5). exists a, b, c, k, v.
  split; [exact H1|]. split; [exact H2|]. assert (EE : (d + (1 # 65536) + 2295 * t <= e)%Q).
  { unfold e, t. assert (0 <= ulp * inject_Z W)%Q. { apply Qmult_le_0_compat; [discriminate|]. change 0%Q with (inject_Z 0). rewrite <- Zle_Qle. lia. }
    setoid_replace (2295 * (16 * ulp * inject_Z W))%Q with (36720 * (ulp * inject_Z W))%Q by ring. setoid_replace (65536 * ulp * inject_Z W)%Q with (65536 * (ulp * inject_Z W))%Q by ring. lra. }
  split; [split; lra|]. intros DS. destruct (H5 DS) as [H6 H7]. split; [exact H6|]. intros q Hq [V0 V1]. rewrite (P i Hi) in Hq. injection Hq as <-. apply H7; auto.
Qed.
End D.

(** C24 with every number rounded to a double.  [i] covers [p] and the square
    surrounds it up to the blur; the bilinear function through the true centres is
    then met up to the solution's error [d], a rounding to float and 2^-37 for each
    cell of distance from the origin.  The bounds by the four costs, and the cost at
    the position reported for the cell, are exact for [d] up to 2^-26. *)
Theorem C24_double : forall (E : Env), real_or_double E -> forall W lin d m l p, W <= 2 ^ 44 ->
  (0 <= d)%Q -> (d <= 1 # 4)%Q -> accurate lin (resn m) (inject_Z W * resn m) d ->
  dgeo W m -> reg_ok m -> has_layer m l -> (forall j v, value_at m l j v -> 0 <= v <= 255) -> start m = (0, 0) -> inside_by (- blur W m) m p ->
  exists i dx dy, in_range (size m) i /\ close (resn m / 2 + blur W m) p (centre m i) /\
  (dx = -1 /\ (fst (centre m i) - blur W m <= fst p)%Q \/ dx = 1 /\ (fst p <= fst (centre m i) + blur W m)%Q) /\
  (dy = -1 /\ (snd (centre m i) - blur W m <= snd p)%Q \/ dy = 1 /\ (snd p <= snd (centre m i) + blur W m)%Q) /\
  let square := [i; (fst i + dx, snd i); (fst i, snd i + dy); (fst i + dx, snd i + dy)] in
  let e := (d + (1 # 65536) + 65536 * ulp * inject_Z W)%Q in
  (Forall (in_range (size m)) square ->
   exists a b c k v, atPosition_interp lin m l p INTER_LINEAR = Ok v /\
     (forall j, In j square -> exists w, value_at m l j w /\
        (a + b * fst (centre m j) + c * snd (centre m j) + k * fst (centre m j) * snd (centre m j) == inject_Z w)%Q) /\
     (let B := a + b * fst p + c * snd p + k * fst p * snd p in inject_Z v <= B + e /\ B - e < inject_Z v + 1)%Q /\
     ((d <= 1 # 67108864)%Q ->
        (forall lo hi, (forall j w, In j square -> value_at m l j w -> lo <= w <= hi) -> lo <= v <= hi) /\
        (forall q, getPosition m i = Some q -> veq p q -> value_at m l i v))) /\
  (~ Forall (in_range (size m)) square ->
   exists v, atPosition_interp lin m l p INTER_LINEAR = Ok v /\ value_at m l i v).
Proof. intros E R W lin d m l p HW. now apply interp_double. Qed.
Print Assumptions C24_double.


(** The map of 7 x 7 cells of 0.2 m holding 0..48, none of whose sizes are doubles:
    (0.05, 0.27) lies between cells holding 25, 26, 32 and 33; the position reported
    for the cell (2, 4) has its cost 30. *)
Example C24_double_case : real_or_double (binary64 BWrap) /\ dgeo 11 decimal /\ reg_ok' decimal /\ start decimal = (0, 0) /\
  (forall j v, value_at decimal "a" j v -> 0 <= v <= 255) /\ accurate exactly (resn decimal) (inject_Z 11 * resn decimal) 0 /\
  inside_by (- blur 11 decimal) decimal (rne 53 (5#100), rne 53 (27#100)) /\
  atPosition_interp (E := binary64 BWrap) exactly decimal "a" (rne 53 (5#100), rne 53 (27#100)) INTER_LINEAR = Ok 26 /\
  (exists q, getPosition (E := binary64 BWrap) decimal (2, 4) = Some q /\ ~ veq q (centre decimal (2, 4)) /\
     atPosition_interp (E := binary64 BWrap) exactly decimal "a" q INTER_LINEAR = Ok 30).
Proof.
  split; [right; eexists; reflexivity|]. split; [dgeo_vm|]. split; [apply reg_okb_ok; vm_compute; reflexivity|]. split; [reflexivity|].
  split; [apply all_costsb_ok; vm_compute; reflexivity|]. split; [apply exactly_accurate|]. split; [vm_compute; intuition discriminate|].
  split; [vm_compute; reflexivity|]. eexists. split; [vm_compute; reflexivity|]. split; [vm_compute; intuition discriminate|]. vm_compute. reflexivity.
Qed.
