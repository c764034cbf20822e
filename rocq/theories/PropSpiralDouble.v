(** Property C35 with rounding: the spiral iterator in doubles. *)
From Coq Require Import ZArith QArith Qround Qabs String List Bool Sorting Lia Lqa.
From Verif Require Import Base Mat GridMapMath GridIter CostMap Iterators Spec DoubleSpec BaseLemmas GeoLemmas CoreProofs FilterProofs RingProofs SpiralProofs
  DoubleGeo DoubleMap DoubleShape Samples PropDouble.
Import ListNotations.
Open Scope Z_scope.

(** Moving a point by little more than half a cell on each axis. *)
Lemma disc_wide a b f g rho : (0 <= rho)%Q -> (a * a + b * b <= rho * rho)%Q ->
  (Qabs f <= 17 # 32)%Q -> (Qabs g <= 17 # 32)%Q ->
  ((a + f) * (a + f) + (b + g) * (b + g) <= (rho + (4#5)) * (rho + (4#5)))%Q.
Proof.
  intros HR HA F G. apply Qabs_Qle_condition in F as [F1 F2]. apply Qabs_Qle_condition in G as [G1 G2].
  assert (FG : (f * f + g * g <= 16#25)%Q) by nra.
  assert (C : ((a * f + b * g) * (a * f + b * g) <= (a * a + b * b) * (f * f + g * g))%Q).
  { assert (0 <= (a * g - b * f) * (a * g - b * f))%Q by apply square_nonneg. nra. }
  assert (N1 : (0 <= f * f + g * g)%Q) by (pose proof (square_nonneg f); pose proof (square_nonneg g); lra).
  assert (C2 : ((a * a + b * b) * (f * f + g * g) <= rho * rho * (16#25))%Q).
  { assert (0 <= rho * rho)%Q by apply square_nonneg.
    apply Qle_trans with (rho * rho * (f * f + g * g))%Q; [apply Qmult_le_compat_r; auto|].
    rewrite (Qmult_comm (rho * rho)), (Qmult_comm (rho * rho)). apply Qmult_le_compat_r; auto. }
  assert (C3 : (a * f + b * g <= (4#5) * rho)%Q). { apply square_le; [lra|]. nra. }
  lra.
Qed.

Section D.
Context {E : Env} (N : Near E) (W : Z) (HW : W <= 2 ^ 44).

Lemma world_zero' m i : start m = (0, 0) -> in_range (size m) i -> world_index m i = i.
Proof.
  intros S [A B]. unfold world_index. rewrite S. cbn [fst snd]. rewrite !Z.sub_0_r, !Z.mod_small by auto. now destruct i.
Qed.

(** Distances in cells, for a centre of the circle known up to the blur. *)
Lemma circle_cells m ic i c rho : dgeo W m -> start m = (0, 0) -> in_range (size m) ic -> in_range (size m) i ->
  close (resn m / 2 + blur W m) c (centre m ic) -> (0 <= rho)%Q ->
  let o := offset ic i in
  (in_circle c (rho * resn m) (centre m i) -> (inject_Z (fst o * fst o + snd o * snd o) <= (rho + (4#5)) * (rho + (4#5)))%Q) /\
  ((inject_Z (fst o * fst o + snd o * snd o) <= rho * rho)%Q -> in_circle c ((rho + (4#5)) * resn m) (centre m i)).
Proof.
  intros G S Hc Hi [C0 C1] HR o. pose proof (d_res _ _ G) as Hr.
  pose proof (small_A W m HW Hr) as SA. assert (HB : (blur W m <= (1 # 32) * resn m)%Q) by (rewrite blur_eq; lra).
  assert (H2 : (resn m / 2 == (1#2) * resn m)%Q) by field. rewrite H2 in C0, C1. clear H2 SA.
  set (f := ((fst c - fst (centre m ic)) / resn m)%Q). set (g := ((snd c - snd (centre m ic)) / resn m)%Q).
  assert (FB : forall x, (Qabs x <= (1#2) * resn m + blur W m)%Q -> (Qabs (x / resn m) <= 17 # 32)%Q).
  { intros x K. apply Qabs_Qle_condition in K as [K0 K1]. apply Qabs_Qle_condition. split; [apply Qle_shift_div_l|apply Qle_shift_div_r]; lra. }
  assert (F : (Qabs f <= 17 # 32)%Q) by (apply FB; exact C0). assert (GG : (Qabs g <= 17 # 32)%Q) by (apply FB; exact C1).
  assert (E1 : (fst (centre m i) - fst c == - resn m * (inject_Z (fst i - fst ic) + f))%Q).
  { unfold f, centre. cbn [fst snd]. rewrite !world_zero' by auto. unfold centre1, Z.sub. rewrite !inject_Z_plus, !inject_Z_opp. field. lra. }
  assert (E2 : (snd (centre m i) - snd c == - resn m * (inject_Z (snd i - snd ic) + g))%Q).
  { unfold g, centre. cbn [fst snd]. rewrite !world_zero' by auto. unfold centre1, Z.sub. rewrite !inject_Z_plus, !inject_Z_opp. field. lra. }
  clearbody f g. unfold o, offset, in_circle. cbn [fst snd]. rewrite E1, E2, inject_Z_plus, !inject_Z_mult.
  set (a := inject_Z (fst i - fst ic)) in *. set (b := inject_Z (snd i - snd ic)) in *. clearbody a b.
  assert (EX : (- resn m * (a + f) * (- resn m * (a + f)) + - resn m * (b + g) * (- resn m * (b + g)) == (resn m * resn m) * ((a + f) * (a + f) + (b + g) * (b + g)))%Q) by ring.
  assert (R2 : (0 < resn m * resn m)%Q) by (apply Qmult_lt_0_compat; auto).
  rewrite !EX. split; intros H.
  - assert (D : ((a + f) * (a + f) + (b + g) * (b + g) <= rho * rho)%Q).
    { apply (Qmult_le_l _ _ _ R2). eapply Qle_trans; [exact H|]. apply Qle_lteq. right. ring. }
    pose proof (disc_wide (a + f) (b + g) (- f) (- g) rho HR D) as K. rewrite !Qabs_opp in K.
    assert (a * a + b * b == (a + f + - f) * (a + f + - f) + (b + g + - g) * (b + g + - g))%Q as -> by ring. now apply K.
  - pose proof (disc_wide a b f g rho HR H F GG) as K.
    apply (Qmult_le_l _ _ _ R2) in K. eapply Qle_trans; [exact K|]. apply Qle_lteq. right. ring.
Qed.

Lemma circle_grow c R R' p : (0 <= R)%Q -> (R <= R')%Q -> in_circle c R p -> in_circle c R' p.
Proof. intros A B K. unfold in_circle in *. eapply Qle_trans; [exact K|]. now apply square_mono. Qed.

Lemma spiral_double m c R : dgeo W m -> start m = (0, 0) -> inside_by (- blur W m) m c ->
  (2 * blur W m <= R)%Q -> (R <= inject_Z W * resn m)%Q -> (R <= inject_Z (2 ^ 32 - 2) * resn m)%Q ->
  exists ic nr N, in_range (size m) ic /\ close (resn m / 2 + blur W m) c (centre m ic) /\
  ((1 - ulp) * R <= inject_Z nr * resn m)%Q /\ (inject_Z (nr - 1) * resn m < (1 + ulp) * R)%Q /\
  let filled r d := exists q, in_range (size m) q /\ ring_no ic q = d /\ (d = nr - 1 -> in_circle c r (centre m q)) in
  ((forall d, 1 <= d < nr -> filled (R - 2 * blur W m)%Q d) ->
   exists vs, (forall fuel, (N <= fuel)%nat -> spiral_visits m c R fuel = Ok vs) /\ NoDup vs /\
     (forall i, in_range (size m) i -> in_circle c (R - 2 * blur W m) (centre m i) -> In i vs) /\
     (forall i, In i vs -> in_range (size m) i /\ in_circle c (R + (4#5) * resn m + 2 * blur W m) (centre m i)) /\
     StronglySorted (fun i j => ring_no ic i <= ring_no ic j) vs) /\
  ((exists d, 1 <= d < nr /\ ~ filled (R + 2 * blur W m)%Q d) ->
   forall fuel, (N <= fuel)%nat -> spiral_visits m c R fuel = Fault OutOfBounds).
Proof.
  intros G S IN RB RW R32. pose proof (d_res _ _ G) as Hr. destruct (d_size _ _ G) as [Z0 Z1].
  assert (W1 : 1 <= W).
  { pose proof (d_far0 _ _ G) as F. pose proof (Qabs_nonneg (fst (pos m))). assert (A : (inject_Z (fst (size m)) * resn m <= inject_Z W * resn m)%Q) by lra.
    apply Qmult_le_r in A; auto. rewrite <- Zle_Qle in A. lia. }
  pose proof (blur_small W HW m G) as BS. pose proof (blur_pos W m ltac:(lia) Hr) as BP.
  assert (II : isInside m c = true) by (apply (inside_down N W HW); auto).
  destruct (index_close N W HW m c G II) as (ic & GI & Hic & CC). { destruct IN as (A & _). lra. } { destruct IN as (_ & _ & A & _). lra. }
  assert (R0 : (0 <= R)%Q) by lra. set (nr := Qceiling (fdiv R (resn m))).
  assert (RP : (0 <= R / resn m)%Q) by (apply Qle_shift_div_l; lra).
  pose proof (N (R / resn m)%Q) as NR. rewrite (Qabs_pos _ RP) in NR. apply Qabs_Qle_condition in NR as [NR0 NR1].
  fold (fdiv R (resn m)) in NR0, NR1. set (q := fdiv R (resn m)) in *.
  assert (ER : (R / resn m * resn m == R)%Q) by (field; lra). set (rho := (R / resn m)%Q) in *.
  assert (RH : (rho <= inject_Z (2 ^ 32 - 2))%Q) by (unfold rho; apply Qle_shift_div_r; auto).
  pose proof (Qle_ceiling q) as CL. pose proof (Qceiling_lt q) as CU. fold nr in CL, CU.
  assert (UL : (0 < ulp)%Q) by reflexivity.
  assert (UR : (ulp * rho <= 1 # 1024)%Q). { apply Qle_trans with (ulp * inject_Z (2 ^ 32 - 2))%Q; [|vm_compute; discriminate]. apply Qmult_le_l; auto. }
  assert (UR0 : (0 <= ulp * rho)%Q) by (apply Qmult_le_0_compat; lra).
  assert (N0 : 0 <= nr). { assert (K : (inject_Z (-1) < inject_Z nr)%Q) by (change (inject_Z (-1)) with (-(1))%Q; lra). rewrite <- Zlt_Qlt in K. lia. }
  assert (N1 : nr < 2 ^ 32). { assert (K : (inject_Z (nr - 1) < inject_Z (2 ^ 32 - 1))%Q). { apply Qlt_trans with (1 := CU). change (inject_Z (2 ^ 32 - 1)) with (inject_Z (2 ^ 32 - 2 + 1)). rewrite inject_Z_plus. change (inject_Z 1) with 1%Q. lra. } rewrite <- Zlt_Qlt in K. lia. }
  assert (NB : forall i, in_range (size m) i ->
     (near_b m c R i = true -> in_circle c (R + 2 * blur W m) (centre m i)) /\ (in_circle c (R - 2 * blur W m) (centre m i) -> near_b m c R i = true)).
  { intros i Hi. destruct (position_close N W HW m i G Hi) as (p & Hp & [P0 P1]).
    assert (EP : position_from_index i (len m) (pos m) (resn m) (size m) (0, 0) = Some p) by (rewrite <- S; exact Hp).
    destruct (circle_test N c R p (centre m i) (inject_Z W * resn m) R0 RW) as [T1 T2].
    { rewrite <- blur_eq. exact P0. } { rewrite <- blur_eq. exact P1. }
    assert (B2 : (32 * (ulp * (inject_Z W * resn m)) == 2 * blur W m)%Q) by (rewrite blur_eq; ring).
    unfold near_b, spiral_inside. rewrite EP. cbv zeta. split; intros K.
    - apply circle_grow with (R + 32 * (ulp * (inject_Z W * resn m)))%Q; [rewrite B2; lra|rewrite B2; lra|]. now apply T1.
    - apply T2; [rewrite B2; exact RB|]. apply circle_grow with (R - 2 * blur W m)%Q; [lra|rewrite B2; lra|exact K]. }
  destruct (spiral_loop m c R ic ltac:(now rewrite GI) Hic (conj N0 N1)) as (N2 & A & B).
  fold q nr in A, B. exists ic, nr, N2. split; [exact Hic|]. split; [exact CC|].
  assert (L1 : ((1 - ulp) * R <= inject_Z nr * resn m)%Q).
  { rewrite <- ER. setoid_replace ((1 - ulp) * (rho * resn m))%Q with ((rho - ulp * rho) * resn m)%Q by ring. apply Qmult_le_compat_r; lra. }
  assert (L2 : (inject_Z (nr - 1) * resn m < (1 + ulp) * R)%Q).
  { rewrite <- ER. setoid_replace ((1 + ulp) * (rho * resn m))%Q with ((rho + ulp * rho) * resn m)%Q by ring. apply Qmult_lt_r; [exact Hr|]. lra. }
  split; [exact L1|]. split; [exact L2|]. intros filled. split.
  - intros FI. destruct A as (vs & V1 & V2 & V3 & V4).
    { intros d Hd. destruct (FI d Hd) as (i & Q1 & Q2 & Q3). exists i. split; [exact Q1|]. split; [exact Q2|]. intros K. now apply NB, Q3. }
    exists vs. split; [exact V1|]. split; [exact V2|]. split; [|split; [|exact V4]].
    + intros i Hi Hc. apply V3. destruct (idx_eqb i ic) eqn:EI; [apply idx_eqb_eq in EI; left; auto|right].
      assert (NI : i <> ic). { intros K. apply idx_eqb_eq in K. congruence. }
      set (d := ring_no ic i). assert (D0 : 0 <= d) by apply Z.sqrt_nonneg.
      assert (OR : on_ring d (offset ic i)) by (apply ring_no_iff; auto).
      assert (D1 : d <> 0).
      { intros K. rewrite K in OR. unfold on_ring, offset in OR. cbn [fst snd] in OR. apply NI.
        destruct i as [i0 i1], ic as [c0 c1]; cbn [fst snd] in *. clear - OR. set (a := i0 - c0) in *. set (b := i1 - c1) in *.
        assert (a = 0 /\ b = 0) as [A B] by (clearbody a b; split; nia). subst a b. f_equal; lia. }
      split; [exact Hi|]. split; [|intros _; now apply NB]. split; [lia|]. destruct (Z_le_gt_dec d nr) as [K|K]; [exact K|exfalso].
      destruct (circle_cells m ic i c rho G S Hic Hi CC RP) as [IC _].
      assert (IN' : in_circle c (rho * resn m) (centre m i)). { apply circle_grow with (R - 2 * blur W m)%Q; [lra| |exact Hc]. rewrite ER. lra. }
      specialize (IC IN'). set (o := offset ic i) in *. destruct OR as [O1 _].
      assert (O2 : (inject_Z ((nr + 1) * (nr + 1)) <= inject_Z (fst o * fst o + snd o * snd o))%Q) by (rewrite <- Zle_Qle; nia).
      rewrite inject_Z_mult, inject_Z_plus in O2. change (inject_Z 1) with 1%Q in O2.
      assert (P0 : (0 <= inject_Z nr)%Q) by (change 0%Q with (inject_Z 0); rewrite <- Zle_Qle; lia).
      set (v := inject_Z (fst o * fst o + snd o * snd o)) in *. clearbody v.
      assert (K1 : ((inject_Z nr + 1) * (inject_Z nr + 1) <= (rho + (4#5)) * (rho + (4#5)))%Q) by lra.
      apply square_le in K1; lra.
    + intros i Hv. apply V3 in Hv as [->|(B2 & AA & B3)].
      * split; [exact Hic|]. destruct (circle_cells m ic ic c rho G S Hic Hic CC RP) as [_ IC].
        apply circle_grow with ((rho + (4#5)) * resn m)%Q; [apply Qmult_le_0_compat; lra| |].
        -- setoid_replace ((rho + (4#5)) * resn m)%Q with (rho * resn m + (4#5) * resn m)%Q by ring. rewrite ER. lra.
        -- apply IC. unfold offset. cbn [fst snd]. rewrite !Z.sub_diag. change (inject_Z (0 * 0 + 0 * 0)) with 0%Q. apply square_nonneg.
      * set (d := ring_no ic i) in *. assert (B1 : on_ring d (offset ic i)) by (apply ring_no_iff; [lia|auto]). split; [exact B2|].
        destruct (Z_le_gt_dec (nr - 1) d) as [K|K].
        -- specialize (B3 K). apply NB in B3; [|exact B2]. apply circle_grow with (R + 2 * blur W m)%Q; [lra|lra|exact B3].
        -- set (rh := (rho + ulp * rho)%Q). assert (RP' : (0 <= rh)%Q) by (unfold rh; lra).
           destruct (circle_cells m ic i c rh G S Hic B2 CC RP') as [_ IC].
           apply circle_grow with ((rh + (4#5)) * resn m)%Q; [apply Qmult_le_0_compat; lra| |].
           ++ unfold rh. setoid_replace ((rho + ulp * rho + (4#5)) * resn m)%Q with (rho * resn m + (4#5) * resn m + ulp * (rho * resn m))%Q by ring. rewrite ER.
              assert (ulp * R <= 2 * blur W m)%Q; [|lra]. rewrite blur_eq.
              assert (ulp * R <= ulp * (inject_Z W * resn m))%Q by (apply Qmult_le_l; auto). assert (0 <= ulp * R)%Q by (apply Qmult_le_0_compat; lra). lra.
           ++ apply IC. destruct B1 as [_ B1]. set (o := offset ic i) in *.
              assert (O2 : (inject_Z (fst o * fst o + snd o * snd o) <= inject_Z ((nr - 1) * (nr - 1)))%Q) by (rewrite <- Zle_Qle; nia).
              eapply Qle_trans; [exact O2|]. rewrite inject_Z_mult.
              assert (0 <= inject_Z (nr - 1))%Q by (change 0%Q with (inject_Z 0); rewrite <- Zle_Qle; lia).
              apply square_mono; [auto|]. unfold rh. lra.
  - intros (d & Hd & NF). apply B. exists d. split; [exact Hd|]. intros (i & Q1 & Q2 & Q3). apply NF.
    exists i. split; [exact Q1|]. split; [exact Q2|]. intros K. now apply NB, Q3.
Qed.
End D.

(** C35 with rounding. On an unmoved map with the centre well inside: there are a
    central cell whose centre is within half a cell of the centre of the circle
    on each axis, and a number of rings that is the radius in cells
    rounded up, both up to rounding. If each ring but the outermost has a cell (of the
    last but one, well within the radius), the loop ends, and lists every cell whose
    centre is well within the radius, each once, from inner to outer rings, and
    none further out than the radius and a little over four fifths of a cell. If one of these
    rings has no cell (of the last but one, within little more than the radius),
    the loop reads from an empty vector. *)
Theorem C35_double : forall (E : Env), real_or_double E -> forall W m c R, W <= 2 ^ 44 ->
  dgeo W m -> start m = (0, 0) -> inside_by (- blur W m) m c ->
  let e := (2 * blur W m)%Q in
  (e <= R)%Q -> (R <= inject_Z W * resn m)%Q -> (R <= inject_Z (2 ^ 32 - 2) * resn m)%Q ->
  exists ic nr N, in_range (size m) ic /\ close (resn m / 2 + blur W m) c (centre m ic) /\
  ((1 - ulp) * R <= inject_Z nr * resn m)%Q /\ (inject_Z (nr - 1) * resn m < (1 + ulp) * R)%Q /\
  let filled r d := exists q, in_range (size m) q /\ ring_no ic q = d /\ (d = nr - 1 -> in_circle c r (centre m q)) in
  ((forall d, 1 <= d < nr -> filled (R - e)%Q d) ->
   exists vs, (forall fuel, (N <= fuel)%nat -> spiral_visits m c R fuel = Ok vs) /\ NoDup vs /\
     (forall i, in_range (size m) i -> in_circle c (R - e) (centre m i) -> In i vs) /\
     (forall i, In i vs -> in_range (size m) i /\ in_circle c (R + (4#5) * resn m + e) (centre m i)) /\
     StronglySorted (fun i j => ring_no ic i <= ring_no ic j) vs) /\
  ((exists d, 1 <= d < nr /\ ~ filled (R + e)%Q d) ->
   forall fuel, (N <= fuel)%nat -> spiral_visits m c R fuel = Fault OutOfBounds).
Proof. intros E X W m c R HW G S I e A B C. exact (spiral_double (near_real E X) W HW m c R G S I A B C). Qed.
Print Assumptions C35_double.

(** Radius 0.4 m, cells of 0.2 m: of the four cells two away from the central one,
    (4, 5) and (6, 3) are visited and (4, 1) and (2, 3) are not; without rounding
    only (4, 5) would be. *)
Example C35_double_case : real_or_double (binary64 BWrap) /\ dgeo 11 decimal /\ start decimal = (0, 0) /\
  inside_by (- blur 11 decimal) decimal (tenths 1, tenths 3) /\
  (2 * blur 11 decimal <= tenths 4)%Q /\ (tenths 4 <= inject_Z 11 * resn decimal)%Q /\
  spiral_visits (E := binary64 BWrap) decimal (tenths 1, tenths 3) (tenths 4) 40 =
    Ok [(4, 3); (5, 2); (4, 2); (3, 2); (3, 3); (3, 4); (4, 4); (5, 4); (5, 3); (4, 5); (6, 3)] /\
  in_circle (tenths 1, tenths 3) (tenths 4) (centre decimal (4, 5)) /\ ~ in_circle (tenths 1, tenths 3) (tenths 4) (centre decimal (6, 3)) /\
  ~ in_circle (tenths 1, tenths 3) (tenths 4) (centre decimal (4, 1)) /\ ~ in_circle (tenths 1, tenths 3) (tenths 4) (centre decimal (2, 3)).
Proof.
  split; [right; eexists; reflexivity|]. split; [dgeo_vm|]. split; [reflexivity|].
  split; [vm_compute; intuition discriminate|]. split; [vm_compute; discriminate|]. split; [vm_compute; discriminate|].
  split; [vm_compute; reflexivity|]. vm_compute. intuition discriminate.
Qed.
