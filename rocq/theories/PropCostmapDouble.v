(** More of C74: windows of costmaps in double arithmetic, for resolutions that are
    powers of two. *)
From Coq Require Import ZArith QArith Qround Qabs Qfield String List Bool Lia Lqa.
From Coq Require Import ZifyBool.
From Verif Require Import Base Mat GridMapMath GridIter CostMap Converter Costmap2D BaseLemmas Spec ConvertSpec DoubleSpec GeoLemmas CoreProofs CoreProofs2 CoreFinal FloatLemmas FloatMono MessageProofs CostmapProofs PropMessage PropRos PropCostmap DoubleGeo DoubleMap Samples.
Import ListNotations.
Open Scope Z_scope.

(** A rounded number is a dyadic fraction with [p] digits. *)
Lemma rne_form p x : 1 <= p -> exists z f, Z.abs z < 2 ^ p /\ (rne p x == inject_Z z * pow2 f)%Q.
Proof.
  intros P. assert (P2 : 2 <= 2 ^ p). { replace p with (Z.succ (p - 1)) by lia. rewrite Z.pow_succ_r by lia. assert (0 < 2 ^ (p - 1)) by (apply Z.pow_pos_nonneg; lia). lia. }
  destruct (Qeq_dec x 0) as [Z|NZ]; [exists 0, 0; split; [lia|]; rewrite (rne_zero p x Z); reflexivity|].
  destruct (rne_spec p x NZ) as (z & R & ER & _). set (u := pow2 (Qlog2 x - (p - 1))) in *.
  destruct (Qlog2_bounds x NZ) as [LB UB].
  assert (UP : (0 < u)%Q) by apply pow2_pos.
  assert (XB : (Qabs (x / u) < inject_Z (2 ^ p))%Q).
  { unfold Qdiv. rewrite Qabs_Qmult, (Qabs_pos (/ u)) by (apply Qlt_le_weak, Qinv_lt_0_compat; auto).
    apply Qlt_shift_div_r; [exact UP|]. rewrite <- pow2_Z by lia. unfold u. rewrite <- pow2_add. replace (p + (Qlog2 x - (p - 1))) with (Qlog2 x + 1) by ring. exact UB. }
  assert (ZB : Z.abs z <= 2 ^ p).
  { apply Qabs_Qle_condition in ER as [E1 E2]. apply Qabs_Qlt_condition in XB as [X1 X2].
    assert (inject_Z (- (2 ^ p) - 1) < inject_Z z)%Q as K1. { unfold Z.sub. rewrite inject_Z_plus, inject_Z_opp. change (inject_Z (-(1))) with (-1)%Q. lra. }
    assert (inject_Z z < inject_Z (2 ^ p + 1))%Q as K2. { rewrite inject_Z_plus. change (inject_Z 1) with 1%Q. lra. }
    rewrite <- Zlt_Qlt in K1, K2. lia. }
  destruct (Z.eq_dec (Z.abs z) (2 ^ p)) as [EQ|NE].
  - exists (Z.sgn z), (Qlog2 x + 1). split; [lia|].
    rewrite R. replace z with (Z.sgn z * 2 ^ p) at 1 by (rewrite <- EQ; lia). rewrite inject_Z_mult, <- pow2_Z by lia.
    replace (Qlog2 x + 1) with (p + (Qlog2 x - (p - 1))) by ring. rewrite pow2_add. unfold u. ring.
  - exists z, (Qlog2 x - (p - 1)). split; [lia|exact R].
Qed.

Section Binary.
Context (bp : bpolicy).
Local Instance dbl : Env := binary64 bp.

(** What doubles leave as it is. *)
Lemma fixed q z e : Z.abs z < 2 ^ 53 -> (q == inject_Z z * pow2 e)%Q -> (rnd q == q)%Q.
Proof. intros Z H. apply (rne_dyadic 53 q z e); auto. lia. Qed.

Context (e : Z) (r : Q) (RE : (r == pow2 e)%Q).

Lemma r_pos : (0 < r)%Q.
Proof. rewrite RE. apply pow2_pos. Qed.

Lemma mul_grid a z : Z.abs z < 2 ^ 53 -> (a == inject_Z z)%Q -> (fmul a r == inject_Z z * r)%Q.
Proof. intros Z A. unfold fmul. rewrite (fixed _ z e Z), A; [reflexivity|]. now rewrite A, RE. Qed.

Lemma div_grid a z : Z.abs z < 2 ^ 53 -> (a == inject_Z z * r)%Q -> (fdiv a r == inject_Z z)%Q.
Proof.
  intros Z A. pose proof r_pos. assert (D : (a / r == inject_Z z)%Q) by (rewrite A; field; lra).
  unfold fdiv. rewrite (fixed _ z 0 Z); [exact D|]. rewrite D. change (pow2 0) with 1%Q. ring.
Qed.

Lemma half_fixed a z : Z.abs z < 2 ^ 53 -> (a == inject_Z z * (r / 2))%Q -> (rnd a == inject_Z z * (r / 2))%Q.
Proof.
  intros Z A. rewrite (fixed _ z (e - 1) Z); [exact A|]. rewrite A, RE. unfold Z.sub. rewrite pow2_add. change (pow2 (-(1))) with (1#2)%Q. field.
Qed.

(** The quotient of a double by a power of two. *)
Lemma div_scaled x : (fdiv (rnd x) r == rnd x / r)%Q.
Proof.
  destruct (rne_form 53 x ltac:(lia)) as (z & f & Z & R). unfold fdiv. apply (fixed _ z (f - e) Z).
  change (rnd x) with (rne 53 x). rewrite R, RE. unfold Qdiv. rewrite <- pow2_opp. unfold Z.sub. rewrite pow2_add. ring.
Qed.

(** The centre of the window along an axis, for coordinates within [W] cells. *)
Lemma window_axis2 o zo len n x W : 0 <= W <= 2 ^ 48 -> (o == inject_Z zo * r)%Q -> Z.abs zo <= W -> 0 < n <= W -> (len == inject_Z n * r)%Q ->
  (Qabs (x - o) <= inject_Z W * r)%Q ->
  exists a, Z.abs a <= 2 * W + 2 /\ (window_centre o r len x == o + (inject_Z a + inject_Z n / 2) * r)%Q /\
            (Qabs (window_centre o r len x - x) <= r / 2 + ulp * (inject_Z W * r))%Q.
Proof.
  intros HW OE ZO NP LE XB. pose proof r_pos as RP. unfold window_centre.
  assert (Qtrunc (fdiv len r) = n) as ->. { rewrite (div_grid len n) by (auto; lia). apply Qtrunc_Z. }
  set (c := fdiv (fsub x o) r). set (s := fsub x o) in c.
  assert (CE : (c * r == s)%Q). { unfold c, s, fsub. rewrite div_scaled. field. lra. }
  assert (SE : (Qabs (s - (x - o)) <= ulp * (inject_Z W * r))%Q).
  { unfold s, fsub. pose proof (near_real dbl ltac:(right; exists bp; reflexivity) (x - o)%Q) as K.
    apply Qle_trans with (ulp * Qabs (x - o))%Q; [exact K|]. rewrite !(Qmult_comm ulp). apply Qmult_le_compat_r; [exact XB|discriminate]. }
  assert (CB : (Qabs c <= inject_Z (W + 1))%Q).
  { assert (SB : (Qabs s <= inject_Z W * r + r)%Q).
    { assert (inject_Z W <= inject_Z (2 ^ 48))%Q by (rewrite <- Zle_Qle; lia).
      assert (inject_Z W * r <= inject_Z (2 ^ 48) * r)%Q by (apply Qmult_le_compat_r; lra). change (inject_Z (2 ^ 48)) with (281474976710656 # 1)%Q in *.
      set (wr := (inject_Z W * r)%Q) in *. clearbody wr s. clear CE. unfold ulp in *.
      apply Qabs_Qle_condition in SE as [S1 S2]. apply Qabs_Qle_condition in XB as [X1 X2]. apply Qabs_Qle_condition. split; lra. }
    rewrite <- CE, Qabs_Qmult, (Qabs_pos r) in SB by lra. rewrite inject_Z_plus. change (inject_Z 1) with 1%Q.
    apply (Qmult_le_r _ _ r RP). apply Qle_trans with (1 := SB). apply Qle_lteq. right. ring. }
  assert (XE : (Qabs (c * r - (x - o)) <= ulp * (inject_Z W * r))%Q) by (rewrite CE; exact SE).
  clearbody c. clear s CE SE. set (d := (ulp * (inject_Z W * r))%Q) in *. clearbody d.
  apply Qabs_Qle_condition in CB as [CB1 CB2]. apply Qabs_Qle_condition in XE as [XE1 XE2].
  assert (RH : (r / 2 == (1#2) * r)%Q) by field.
  destruct (Z.odd n) eqn:OD.
  - apply Z.odd_spec in OD as [h ->]. set (f := Qfloor c).
    pose proof (Qfloor_le c) as F1. pose proof (Qlt_floor c) as F2. fold f in F1, F2. rewrite inject_Z_plus in F2. change (inject_Z 1) with 1%Q in F2.
    assert (FB : Z.abs f <= W + 2).
    { assert (inject_Z f <= inject_Z (W + 1))%Q as A by lra. rewrite <- Zle_Qle in A.
      assert (inject_Z (- (W + 1) - 1) < inject_Z f)%Q as B. { unfold Z.sub. rewrite inject_Z_plus, inject_Z_opp. change (inject_Z (-(1))) with (-1)%Q. lra. }
      rewrite <- Zlt_Qlt in B. lia. }
    clearbody f.
    assert (WE : (fadd (fadd (fmul (inject_Z f) r) (fdiv r 2)) o == o + (inject_Z f + (1#2)) * r)%Q).
    { assert (M : (fmul (inject_Z f) r == inject_Z f * r)%Q) by (apply mul_grid; [lia|reflexivity]).
      assert (H2 : (fdiv r 2 == r / 2)%Q). { unfold fdiv. rewrite (half_fixed (r / 2) 1); [ring|lia|ring]. }
      assert (A1 : (fadd (fmul (inject_Z f) r) (fdiv r 2) == inject_Z (2 * f + 1) * (r / 2))%Q).
      { unfold fadd. apply half_fixed; [lia|]. rewrite M, H2, inject_Z_plus, inject_Z_mult. change (inject_Z 2) with 2%Q. change (inject_Z 1) with 1%Q. field. }
      unfold fadd at 1. rewrite (half_fixed _ (2 * f + 1 + 2 * zo)); [| lia|].
      - rewrite OE. rewrite !inject_Z_plus, !inject_Z_mult. change (inject_Z 2) with 2%Q. change (inject_Z 1) with 1%Q. field.
      - rewrite A1, OE. rewrite !inject_Z_plus, !inject_Z_mult. change (inject_Z 2) with 2%Q. change (inject_Z 1) with 1%Q. field. }
    exists (f - h). split; [lia|]. rewrite WE. split.
    + unfold Zminus. rewrite !inject_Z_plus, inject_Z_opp, inject_Z_mult. change (inject_Z 2) with 2%Q. change (inject_Z 1) with 1%Q. field.
    + set (g := inject_Z f) in *. clearbody g.
      assert (g * r <= c * r)%Q by (apply Qmult_le_compat_r; lra).
      assert (c * r <= (g + 1) * r)%Q by (apply Qmult_le_compat_r; lra).
      assert (E1 : (o + (g + (1#2)) * r - x == g * r + (1#2) * r - (x - o))%Q) by ring. rewrite E1, RH.
      assert (E2 : ((g + 1) * r == g * r + r)%Q) by ring. rewrite E2 in *.
      apply Qabs_Qle_condition. split; lra.
  - assert (Z.even n = true) as EV by (rewrite <- Z.negb_odd, OD; reflexivity). apply Z.even_spec in EV as [h ->].
    set (f := Qround_away c). pose proof (Qround_away_near c) as F. fold f in F. apply Qabs_Qle_condition in F as [F1 F2].
    assert (FB : Z.abs f <= W + 2).
    { assert (inject_Z f < inject_Z (W + 1 + 1))%Q as A. { rewrite inject_Z_plus. change (inject_Z 1) with 1%Q. lra. } rewrite <- Zlt_Qlt in A.
      assert (inject_Z (- (W + 1) - 1) < inject_Z f)%Q as B. { unfold Z.sub. rewrite inject_Z_plus, inject_Z_opp. change (inject_Z (-(1))) with (-1)%Q. lra. }
      rewrite <- Zlt_Qlt in B. lia. }
    clearbody f.
    assert (WE : (fadd (fmul (inject_Z f) r) o == o + inject_Z f * r)%Q).
    { assert (M : (fmul (inject_Z f) r == inject_Z f * r)%Q) by (apply mul_grid; [lia|reflexivity]).
      unfold fadd. rewrite (half_fixed _ (2 * f + 2 * zo)); [|lia|].
      - rewrite OE, inject_Z_plus, !inject_Z_mult. change (inject_Z 2) with 2%Q. field.
      - rewrite M, OE, inject_Z_plus, !inject_Z_mult. change (inject_Z 2) with 2%Q. field. }
    exists (f - h). split; [lia|]. rewrite WE. split.
    + unfold Zminus. rewrite !inject_Z_plus, inject_Z_opp, inject_Z_mult. change (inject_Z 2) with 2%Q. field.
    + set (g := inject_Z f) in *. clearbody g.
      assert ((c - g) * r <= (1#2) * r)%Q by (apply Qmult_le_compat_r; lra).
      assert (- (1#2) * r <= (c - g) * r)%Q by (apply Qmult_le_compat_r; lra).
      assert (E1 : (o + g * r - x == g * r - (x - o))%Q) by ring. rewrite E1, RH.
      assert (E2 : ((c - g) * r == c * r - g * r)%Q) by ring. rewrite E2 in *.
      assert (E3 : (- (1#2) * r == - ((1#2) * r))%Q) by ring. rewrite E3 in *.
      apply Qabs_Qle_condition. split; lra.
Qed.

Lemma cell_of_vertex2 o w b : Z.abs b < 2 ^ 53 -> (w == o + inject_Z b * r)%Q -> Qtrunc (fdiv (fsub w o) r) = b.
Proof.
  intros B W. assert (D : (fsub w o == inject_Z b * r)%Q).
  { assert (K : (w - o == inject_Z b * r)%Q) by (rewrite W; ring). unfold fsub. rewrite (fixed _ b e B); [exact K|]. now rewrite K, RE. }
  rewrite (div_grid _ b B D). apply Qtrunc_Z.
Qed.

Lemma worldToMap_vertex2 k w b : k_resn k = r -> Z.abs (fst b) < 2 ^ 53 -> Z.abs (snd b) < 2 ^ 53 -> vertex k b w ->
  worldToMap k w = if (0 <=? fst b) && (0 <=? snd b) && (fst b <? fst (k_size k)) && (snd b <? snd (k_size k)) then Some b else None.
Proof.
  intros KR B0 B1 [W0 W1]. cbn [fst snd] in W0, W1. unfold worldToMap. rewrite KR in *. pose proof r_pos as RP.
  rewrite (below_origin _ _ _ _ RP W0), (below_origin _ _ _ _ RP W1), (cell_of_vertex2 _ _ _ B0 W0), (cell_of_vertex2 _ _ _ B1 W1).
  destruct b as [b0 b1]. cbn [fst snd].
  destruct (b0 <? 0) eqn:A, (b1 <? 0) eqn:B, (0 <=? b0) eqn:C, (0 <=? b1) eqn:D; cbn [orb andb]; try lia; auto.
Qed.

Lemma window_vertex2 k a n o s zo W : k_resn k = r -> 0 <= W <= 2 ^ 48 -> 0 < fst n <= W -> 0 < snd n <= W ->
  veq (k_origin k) (inject_Z (fst zo) * r, inject_Z (snd zo) * r)%Q -> Z.abs (fst zo) <= W -> Z.abs (snd zo) <= W ->
  Z.abs (fst a) <= 2 * W + 2 -> Z.abs (snd a) <= 2 * W + 2 -> vertex k a o -> veq s (inject_Z (fst n) * k_resn k, inject_Z (snd n) * k_resn k)%Q ->
  copyCostmapWindow k o s = if fits_window k a n then Some (Costmap2D n (k_resn k) o (copyMapRegion k a n)) else None.
Proof.
  intros KR HW N0 N1 [O0 O1] Z0 Z1 A0 A1 VO [S0 S1]. cbn [fst snd] in O0, O1, S0, S1. unfold copyCostmapWindow.
  assert (VU : vertex k (fst a + fst n, snd a + snd n) (fadd (fst o) (fst s), fadd (snd o) (snd s))).
  { assert (AX : forall q t c b z m, (c == inject_Z z * r)%Q -> (q == c + inject_Z b * r)%Q -> (t == inject_Z m * r)%Q -> Z.abs (z + b + m) < 2 ^ 53 ->
      (fadd q t == c + inject_Z (b + m) * r)%Q).
    { intros q t c b z m C Q T B. assert (K : (q + t == inject_Z (z + b + m) * r)%Q) by (rewrite Q, T, C, !inject_Z_plus; ring).
      unfold fadd. rewrite (fixed _ (z + b + m) e B); [rewrite Q, T, inject_Z_plus; ring|]. now rewrite K, RE. }
    destruct VO as [V0 V1]. cbn [fst snd] in V0, V1. rewrite KR in *. split; cbn [fst snd]; rewrite KR; eapply AX; eauto; lia. }
  rewrite (worldToMap_vertex2 k o a KR) by (auto; lia). assert (U0 : Z.abs (fst (fst a + fst n, snd a + snd n)) < 2 ^ 53) by (cbn [fst snd]; lia). assert (U1 : Z.abs (snd (fst a + fst n, snd a + snd n)) < 2 ^ 53) by (cbn [fst snd]; lia).
  rewrite (worldToMap_vertex2 k _ _ KR U0 U1 VU). cbn [fst snd]. unfold fits_window.
  assert (EN : (fst a + fst n - fst a, snd a + snd n - snd a) = n) by (destruct n; cbn; f_equal; lia).
  destruct (0 <=? fst a) eqn:A, (0 <=? snd a) eqn:B, (fst a <? fst (k_size k)) eqn:C, (snd a <? snd (k_size k)) eqn:D,
    (0 <=? fst a + fst n) eqn:F, (0 <=? snd a + snd n) eqn:G, (fst a + fst n <? fst (k_size k)) eqn:H, (snd a + snd n <? snd (k_size k)) eqn:I;
    cbn [andb fst snd]; rewrite ?EN; auto; lia.
Qed.
End Binary.

(** The whole costmap with doubles: the map lies exactly on the costmap. *)
Theorem C73_binary : forall p c l m e zo W, let k := c_map c in let r := k_resn k in
  costmap_ok k -> fst (k_size k) <= 2 ^ 22 -> snd (k_size k) <= 2 ^ 22 -> 0 <= W <= 2 ^ 48 -> (r == pow2 e)%Q ->
  veq (k_origin k) (inject_Z (fst zo) * r, inject_Z (snd zo) * r)%Q -> Z.abs (fst zo) <= W -> Z.abs (snd zo) <= W -> reg_ok' m ->
  exists m', fromCostmap2DROS (E := binary64 p) c l m = Ret true m' /\ made_from m m' l (c_frame c) (k_size k) r /\ stamp m' = stamp m /\
    (forall x v, cost_at k x v -> value_at m' l (fst (k_size k) - 1 - fst x, snd (k_size k) - 1 - snd x) v) /\
    geo_ok m' /\ veq (lower m') (k_origin k) /\
    forall x v, cost_at k x v -> exists i, in_range (size m') i /\ value_at m' l i v /\ veq (centre m' i) (cost_centre k x).
Proof.
  intros p c l m e zo W k r KO S0 S1 HW RE [O0 O1] Z0 Z1 R. cbn [fst snd] in O0, O1. pose proof KO as (RP & K0 & K1 & L).
  destruct (whole_core (binary64 p) ltac:(right; exists p; reflexivity) c l m KO S0 S1 R) as (m' & F & MF & ST & VF & PM & LM). fold k in MF, VF, PM, LM.
  exists m'. split; [exact F|]. split; [exact MF|]. split; [exact ST|]. split; [exact VF|].
  pose proof (mf_size _ _ _ _ _ _ MF) as SM. pose proof (mf_resn _ _ _ _ _ _ MF) as RM. pose proof (mf_start _ _ _ _ _ _ MF) as TM.
  assert (LN : forall n, 0 < n <= 2 ^ 22 -> (fmul (E := binary64 p) (inject_Z n) r == inject_Z n * r)%Q).
  { intros n N. apply (mul_grid p e r RE); [lia|reflexivity]. }
  assert (CN : forall o z n, (o == inject_Z z * r)%Q -> Z.abs z <= W -> 0 < n <= 2 ^ 22 ->
    (fadd (E := binary64 p) o (fmul (E := binary64 p) (1#2) (fmul (E := binary64 p) (inject_Z n) r)) == o + inject_Z n * r / 2)%Q).
  { intros o z n O Z N.
    assert (H : (fmul (E := binary64 p) (1#2) (fmul (E := binary64 p) (inject_Z n) r) == inject_Z n * (r / 2))%Q).
    { unfold fmul at 1. apply (half_fixed p e r RE); [lia|]. rewrite (LN n N). field. }
    unfold fadd. rewrite (half_fixed p e r RE _ (2 * z + n)); [rewrite O|lia|rewrite H, O]; rewrite inject_Z_plus, inject_Z_mult; change (inject_Z 2) with 2%Q; field. }
  apply whole_exact; auto; rewrite ?PM, ?LM; split; cbn [whole_centre whole_length fst snd]; fold r; eauto; try (apply LN; lia).
Qed.
Print Assumptions C73_binary.

(** With doubles, when the resolution is a power of two and the origin a whole number
    of cells, everything is as in exact arithmetic (C74_window), except that the
    robot may be a rounding error further from the centre. *)
Theorem C74_binary : forall p c l m x n geometry e zo W, let k := c_map c in let r := k_resn k in
  costmap_ok k -> c_pose c = Some x -> 0 <= W <= 2 ^ 48 -> 0 < fst n <= W -> 0 < snd n <= W -> (r == pow2 e)%Q ->
  veq (k_origin k) (inject_Z (fst zo) * r, inject_Z (snd zo) * r)%Q -> Z.abs (fst zo) <= W -> Z.abs (snd zo) <= W ->
  close (inject_Z W * r) x (k_origin k) ->
  veq geometry (inject_Z (fst n) * r, inject_Z (snd n) * r)%Q -> reg_ok' m ->
  exists a m' b, fromCostmap2DROSAtRobotPose (E := binary64 p) c geometry l m = Ret b m' /\
    geo_ok m' /\ reg_ok' m' /\ frame m' = c_frame c /\ stamp m' = c_now c /\ size m' = n /\ resn m' = r /\
    vertex k a (lower m') /\ close (r / 2 + ulp * (inject_Z W * r)) (pos m') x /\
    (b = true <-> 0 <= fst a /\ 0 <= snd a /\ fst a + fst n < fst (k_size k) /\ snd a + snd n < snd (k_size k)) /\
    (b = true -> made_from m m' l (c_frame c) n r /\
       forall i, in_range n i -> exists y v, value_at m' l i v /\ cost_at k y v /\ veq (centre m' i) (cost_centre k y)) /\
    (b = false -> layers m' = layers m /\ forall l' i, has_layer m l' -> in_range n i -> value_at m' l' i unknown).
Proof.
  intros p c l m x n geometry e zo W k r KO HP HW N0 N1 RE OE Z0 Z1 [X0 X1] [G0 G1] R. cbn [fst snd] in G0, G1. pose proof KO as (RP & K0 & K1 & L).
  pose proof OE as [O0 O1]. cbn [fst snd] in O0, O1.
  assert (PP : forall z, 0 < z -> (0 < inject_Z z * r)%Q).
  { intros z Hz. apply Qmult_lt_0_compat; auto. change 0%Q with (inject_Z 0). now rewrite <- Zlt_Qlt. }
  destruct (window_axis2 p e r RE (fst (k_origin k)) (fst zo) (fst geometry) (fst n) (fst x) W HW O0 Z0 N0 G0 X0) as (a0 & B0 & W0 & C0).
  destruct (window_axis2 p e r RE (snd (k_origin k)) (snd zo) (snd geometry) (snd n) (snd x) W HW O1 Z1 N1 G1 X1) as (a1 & B1 & W1 & C1).
  set (ps := (window_centre (E := binary64 p) (fst (k_origin k)) r (fst geometry) (fst x), window_centre (E := binary64 p) (snd (k_origin k)) r (snd geometry) (snd x))).
  assert (LE : veq (len (emptied (E := binary64 p) (c_frame c) (c_now c) n r ps m)) (inject_Z (fst n) * r, inject_Z (snd n) * r)%Q).
  { split; cbn [emptied len fst snd]; apply (mul_grid p e r RE); try reflexivity; lia. }
  destruct (window_core (binary64 p) c l m n geometry (a0, a1) ps) as (m' & b & RUN & H1 & H2 & H3 & H4 & H5 & H6 & H7 & H8 & H9); auto; try lia.
  - unfold initializeFromCostmap2DAtRobotPose. rewrite HP. fold k r. unfold bind, setFrameId, setTimestamp, modify. fold ps.
    rewrite setGeometry_any; [|rewrite G0; apply PP; lia|rewrite G1; apply PP; lia|auto].
    assert (cells_of (E := binary64 p) geometry r = n) as ->; [|reflexivity].
    unfold cells_of. destruct n as [n0 n1]. cbn [fst snd] in *.
    rewrite (div_grid p e r RE (fst geometry) n0), (div_grid p e r RE (snd geometry) n1) by (auto; lia).
    now rewrite !Qround_away_Z.
  - split; assumption.
  - apply (window_vertex2 p e r RE) with (zo := zo) (W := W); auto. destruct LE as [L0 L1]. cbn [fst snd] in L0, L1. fold k r.
    assert (AX : forall ps ln c a z m, (c == inject_Z z * r)%Q -> (ps == c + (inject_Z a + inject_Z m / 2) * r)%Q -> (ln == inject_Z m * r)%Q ->
      Z.abs m < 2 ^ 53 -> Z.abs (z + a) < 2 ^ 53 -> (fsub (E := binary64 p) ps (fdiv (E := binary64 p) ln 2) == c + inject_Z a * r)%Q).
    { intros q ln cc a z mm C Q T B D.
      assert (H2 : (fdiv (E := binary64 p) ln 2 == inject_Z mm * (r / 2))%Q).
      { unfold fdiv. apply (half_fixed p e r RE); [exact B|]. rewrite T. field. }
      assert (K : (q - fdiv (E := binary64 p) ln 2 == inject_Z (z + a) * r)%Q) by (rewrite H2, Q, C, inject_Z_plus; field).
      unfold fsub. rewrite (fixed p _ (z + a) e D); [rewrite K, C, inject_Z_plus; ring|]. now rewrite K, RE. }
    split; cbn [fst snd]; fold r; eapply AX; eauto; lia.
  - exists (a0, a1), m', b. split; [exact RUN|]. do 7 (split; [assumption|]). split; [rewrite H8; split; assumption|]. exact H9.
Qed.
Print Assumptions C74_binary.

(** The costmap of the example as a whole. *)
Example C73_binary_case : let k := Costmap2D (10, 10) (1#2) (-6, 0)%Q costs10 in
  match fromCostmap2DROS (E := binary64 BClamp) (RosCostmap k "map" None 7) "a" (new_map []) with
  | Ret true m' => costmap_ok k /\ veq (lower m') (-6, 0)%Q /\ veq (pos m') (-7#2, 5#2)%Q
  | _ => False
  end.
Proof.
  cbv zeta. destruct (fromCostmap2DROS _ _ _) as [b m'|e m'|f] eqn:H; vm_compute in H; try discriminate H. injection H as <- <-.
  split; [vm_compute; repeat split; reflexivity|]. split; split; vm_compute; reflexivity.
Qed.

(** The windows of the test cost_map_centres, with the poses as doubles. *)
Example C74_binary_case : let c x y := RosCostmap (Costmap2D (10, 10) (1#2) (-6, 0)%Q costs10) "map" (Some (rne 53 x, rne 53 y)) 7 in
  match fromCostmap2DROSAtRobotPose (E := binary64 BClamp) (c (-37#10) (24#10))%Q (3, 3)%Q "a" (new_map []) with
  | Ret true m' => veq (pos m') (-7#2, 5#2)%Q /\ value_at m' "a" (0, 0) 77
  | _ => False
  end.
Proof.
  cbv zeta. destruct (fromCostmap2DROSAtRobotPose _ _ _ _) as [b m'|e m'|f] eqn:H; vm_compute in H; try discriminate H. injection H as <- <-.
  split; [split; vm_compute; reflexivity|]. eexists. split; [reflexivity|vm_compute; reflexivity].
Qed.
