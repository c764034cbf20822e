(** Properties C73 and C74, and more of C60: maps made from a costmap_2d. *)
From Coq Require Import ZArith QArith Qround Qabs Qfield String List Bool Lia Lqa.
From Coq Require Import ZifyBool.
From Verif Require Import Base Mat GridMapMath GridIter CostMap Converter Costmap2D BaseLemmas Spec ConvertSpec DoubleSpec GeoLemmas CoreProofs CoreProofs2 CoreFinal MessageProofs CostmapProofs PropMessage PropRos DoubleGeo DoubleMap Samples.
Import ListNotations.
Open Scope Z_scope.

(** ** C73 *)

(** A layer added to a map that was emptied and given a new geometry: of [m], only
    the names of the layers and the basic layers are left. *)
Record made_from (m m' : cmap) (l : string) (f : string) (n : idx) (r : Q) : Prop :=
  { mf_reg : reg_ok' m';
    mf_frame : frame m' = f;
    mf_basic : basic m' = basic m;
    mf_size : size m' = n;
    mf_resn : resn m' = r;
    mf_start : start m' = (0, 0);
    mf_layers : layers m' = if exists_layer m l then layers m else layers m ++ [l];
    mf_others : forall l' i, has_layer m l' -> l' <> l -> in_range n i -> value_at m' l' i unknown }.

(** The geometry given to the map, and the costs. *)
Definition whole_length {E : Env} (k : costmap2d) : vec := (fmul (inject_Z (fst (k_size k))) (k_resn k), fmul (inject_Z (snd (k_size k))) (k_resn k)).
Definition whole_centre {E : Env} (k : costmap2d) : vec :=
  (fadd (fst (k_origin k)) (fmul (1#2) (fst (whole_length k))), fadd (snd (k_origin k)) (fmul (1#2) (snd (whole_length k)))).

Lemma whole_core : forall (E : Env), real_or_double E -> forall c l m, let k := c_map c in
  costmap_ok k -> fst (k_size k) <= 2 ^ 22 -> snd (k_size k) <= 2 ^ 22 -> reg_ok' m ->
  exists m', fromCostmap2DROS c l m = Ret true m' /\
    made_from m m' l (c_frame c) (k_size k) (k_resn k) /\ stamp m' = stamp m /\
    (forall x v, cost_at k x v -> value_at m' l (fst (k_size k) - 1 - fst x, snd (k_size k) - 1 - snd x) v) /\
    pos m' = whole_centre k /\ len m' = whole_length k.
Proof.
  intros E X c l m k KO S0 S1 R. pose proof KO as (RP & N0 & N1 & L).
  destruct (double_count E X (k_resn k) (fst (k_size k)) (fmul (inject_Z (fst (k_size k))) (k_resn k)) RP ltac:(lia) ltac:(reflexivity)) as [P0 C0].
  destruct (double_count E X (k_resn k) (snd (k_size k)) (fmul (inject_Z (snd (k_size k))) (k_resn k)) RP ltac:(lia) ltac:(reflexivity)) as [P1 C1].
  unfold fromCostmap2DROS, initializeFromCostmap2D. fold k.
  change (fmul (inject_Z (fst (k_size k))) (k_resn k), fmul (inject_Z (snd (k_size k))) (k_resn k)) with (whole_length k).
  set (LN := whole_length k). set (PS := whole_centre k).
  change (fadd (fst (k_origin k)) (fmul (1#2) (fst LN)), fadd (snd (k_origin k)) (fmul (1#2) (snd LN))) with PS.
  unfold bind at 1. unfold bind at 1. rewrite (setGeometry_any LN (k_resn k) PS m P0 P1 RP).
  assert (CO : cells_of LN (k_resn k) = k_size k). { unfold cells_of, LN, whole_length. cbn [fst snd]. rewrite C0, C1. now destruct (k_size k). }
  rewrite CO. unfold setFrameId, modify, set_frame. cbn [frame stamp data layers basic len resn pos size start].
  change (CMap (c_frame c) _ _ _ _ _ _ _ _ _) with (emptied (c_frame c) (stamp m) (k_size k) (k_resn k) PS m).
  set (m1 := emptied (c_frame c) (stamp m) (k_size k) (k_resn k) PS m).
  destruct (add_costs k l m1) as (m' & A & R' & M & LL & O & H & V); auto; try lia.
  { apply emptied_reg; auto; lia. }
  exists m'. unfold bind. rewrite A. cbn [negb]. split; [reflexivity|].
  pose proof M as (F1 & F2 & F3 & F4 & F5 & F6 & F7 & F8).
  assert (EX : exists_layer m1 l = exists_layer m l).
  { apply eq_iff_eq_true. rewrite !exists_has. apply emptied_has. }
  assert (VF : forall x v, cost_at k x v -> value_at m' l (flip (k_size k) x) v) by exact V.
  split.
  { constructor; auto; try (symmetry; assumption).
    - now rewrite LL, EX.
    - intros l' i Hl NE Hi. apply O; auto. apply emptied_at; auto. }
  split; [symmetry; exact F2|]. split; [exact VF|]. split; symmetry; [exact F6|exact F4].
Qed.


(** A map with that centre and length, up to no more than their representation,
    lies on the costmap. *)
Lemma whole_exact k m' l : costmap_ok k -> size m' = k_size k -> resn m' = k_resn k -> start m' = (0, 0) ->
  veq (len m') (inject_Z (fst (k_size k)) * k_resn k, inject_Z (snd (k_size k)) * k_resn k)%Q ->
  veq (pos m') (fst (k_origin k) + inject_Z (fst (k_size k)) * k_resn k / 2, snd (k_origin k) + inject_Z (snd (k_size k)) * k_resn k / 2)%Q ->
  (forall x v, cost_at k x v -> value_at m' l (fst (k_size k) - 1 - fst x, snd (k_size k) - 1 - snd x) v) ->
  geo_ok m' /\ veq (lower m') (k_origin k) /\
  forall x v, cost_at k x v -> exists i, in_range (size m') i /\ value_at m' l i v /\ veq (centre m' i) (cost_centre k x).
Proof.
  intros (RP & N0 & N1 & L) SM RM TM [EL0 EL1] [EP0 EP1] VF. cbn [fst snd] in EL0, EL1, EP0, EP1. split; [|split].
  - constructor; rewrite ?SM, ?RM, ?TM; auto. + split; assumption. + unfold in_range; cbn; lia.
  - unfold lower. split; cbn [fst snd]; [rewrite EL0, EP0|rewrite EL1, EP1]; ring.
  - intros x v Hx. exists (fst (k_size k) - 1 - fst x, snd (k_size k) - 1 - snd x). destruct Hx as [[B0 B1] HN]. split; [rewrite SM; unfold in_range; cbn; lia|].
    split; [apply VF; split; [split|]; auto|].
    unfold centre, world_index, cost_centre, centre1. rewrite SM, RM, TM. cbn [fst snd].
    rewrite !Z.sub_0_r, !Z.mod_small by lia. split; cbn [fst snd]; [rewrite EL0, EP0|rewrite EL1, EP1]; injz; field.
Qed.

(** The whole costmap. In double arithmetic the costs arrive in the same cells as in
    exact arithmetic, on a map that lies at the same place up to the blur. *)
Theorem C73_whole : forall (E : Env), real_or_double E -> forall c l m, let k := c_map c in
  costmap_ok k -> fst (k_size k) <= 2 ^ 22 -> snd (k_size k) <= 2 ^ 22 -> reg_ok' m ->
  exists m', fromCostmap2DROS c l m = Ret true m' /\
    made_from m m' l (c_frame c) (k_size k) (k_resn k) /\ stamp m' = stamp m /\
    (forall x v, cost_at k x v -> value_at m' l (fst (k_size k) - 1 - fst x, snd (k_size k) - 1 - snd x) v) /\
    (Exact E -> geo_ok m' /\ veq (lower m') (k_origin k) /\
       forall x v, cost_at k x v -> exists i, in_range (size m') i /\ value_at m' l i v /\ veq (centre m' i) (cost_centre k x)) /\
    (forall W, W <= 2 ^ 44 ->
       (Qabs (fst (k_origin k)) + 2 * inject_Z (fst (k_size k)) * k_resn k <= inject_Z W * k_resn k)%Q ->
       (Qabs (snd (k_origin k)) + 2 * inject_Z (snd (k_size k)) * k_resn k <= inject_Z W * k_resn k)%Q ->
       close (blur W m') (lower m') (k_origin k)).
Proof.
  intros E X c l m k KO S0 S1 R. pose proof KO as (RP & N0 & N1 & L).
  destruct (whole_core E X c l m KO S0 S1 R) as (m' & F & MF & ST & VF & PM & LM). fold k in MF, VF, PM, LM.
  exists m'. split; [exact F|]. split; [exact MF|]. split; [exact ST|]. split; [exact VF|].
  pose proof (mf_size _ _ _ _ _ _ MF) as SM. pose proof (mf_resn _ _ _ _ _ _ MF) as RM. pose proof (mf_start _ _ _ _ _ _ MF) as TM. split.
  - intros XE. apply whole_exact; auto; rewrite ?PM, ?LM; split; cbn [whole_centre whole_length fst snd].
    + unfold fmul; apply XE.
    + unfold fmul; apply XE.
    + rewrite (fadd_eq XE), (fmul_eq XE), (fmul_eq XE); field.
    + rewrite (fadd_eq XE), (fmul_eq XE), (fmul_eq XE); field.
  - intros W HW H0 H1. pose proof (near_real E X) as N.
    assert (AX : forall o n, 0 < n -> (Qabs o + 2 * inject_Z n * k_resn k <= inject_Z W * k_resn k)%Q ->
      let ln := fmul (inject_Z n) (k_resn k) in let ps := fadd o (fmul (1#2) ln) in (Qabs (ps - ln / 2 - o) <= 16 * ulp * inject_Z W * k_resn k)%Q).
    { intros o n Hn HO ln ps. set (A0 := (inject_Z n * k_resn k)%Q).
      assert (AP : (0 < A0)%Q). { apply Qmult_lt_0_compat; auto. change 0%Q with (inject_Z 0). now rewrite <- Zlt_Qlt. }
      assert (E0 : (2 * inject_Z n * k_resn k == 2 * A0)%Q) by (unfold A0; ring). rewrite E0 in HO.
      assert (EW : (16 * ulp * inject_Z W * k_resn k == 16 * ulp * (inject_Z W * k_resn k))%Q) by ring. rewrite EW.
      set (B := (inject_Z W * k_resn k)%Q) in *. clearbody B.
      pose proof (N A0) as K1. change (rnd A0) with ln in K1. rewrite (Qabs_pos A0) in K1 by lra.
      apply Qabs_Qle_condition in K1 as [K1 K1']. clearbody ln.
      assert (LP : (0 <= ln)%Q) by (unfold ulp in K1; lra).
      pose proof (N ((1#2) * ln)%Q) as K2. change (rnd ((1#2) * ln)) with (fmul (1#2) ln) in K2. rewrite (Qabs_pos ((1#2) * ln)) in K2 by lra.
      apply Qabs_Qle_condition in K2 as [K2 K2']. subst ps. set (h := fmul (1#2) ln) in *. clearbody h.
      pose proof (N (o + h)%Q) as K3. change (rnd (o + h)) with (fadd o h) in K3. set (ps := fadd o h) in *. clearbody ps.
      pose proof (Qabs_triangle o h) as T. assert (HP : (0 <= h)%Q) by (unfold ulp in K2; lra). rewrite (Qabs_pos h) in T by auto.
      pose proof (Qabs_nonneg o) as ON. set (a := Qabs (o + h)) in *. set (b := Qabs o) in *. clearbody a b A0.
      apply Qabs_Qle_condition in K3 as [K3 K3']. assert (EH : (ln / 2 == (1#2) * ln)%Q) by field. rewrite EH.
      apply Qabs_Qle_condition. unfold ulp in *. split; lra. }
    unfold close, blur, lower. rewrite RM, PM, LM. cbn [fst snd]. split; [exact (AX _ _ N0 H0)|exact (AX _ _ N1 H1)].
Qed.
Print Assumptions C73_whole.

(** The costmap of the test full_window in
    cost_map_demos/src/test/rostests/from_ros_costmaps/from_ros_costmaps.cpp, and
    what the test asserts. *)
Definition strip_costs : list Z :=
  flat_map (fun _ => map (fun x => (x + 1) * 253 / 10) (zseq 8) ++ [254; 255]) (zseq 10).
Definition five_by_five : ros_costmap :=
  RosCostmap (Costmap2D (10, 10) (1#2) (0, 0)%Q strip_costs) "map" (Some (1, 1)%Q) 7.

Example C73_case : costmap_ok (c_map five_by_five) /\
  exists m', fromCostmap2DROS (E := binary64 BClamp) five_by_five "obstacle_costs" (new_map []) = Ret true m' /\
    veq (len m') (5, 5)%Q /\ size m' = (10, 10) /\ veq (lower m') (0, 0)%Q /\
    cost_at (c_map five_by_five) (8, 0) 254 /\ value_at m' "obstacle_costs" (1, 9) 254 /\ value_at m' "obstacle_costs" (9, 3) 25.
Proof.
  split; [repeat split; vm_compute; reflexivity|].
  destruct (fromCostmap2DROS (E := binary64 BClamp) five_by_five "obstacle_costs" (new_map [])) as [b m'|e m'|f] eqn:H; try (vm_compute in H; discriminate H).
  exists m'. vm_compute in H. injection H as <- <-. split; [reflexivity|]. split; [split; vm_compute; reflexivity|]. split; [reflexivity|].
  split; [split; vm_compute; reflexivity|]. split; [split; [unfold in_range; cbn; lia|vm_compute; reflexivity]|].
  split; eexists; (split; [reflexivity|vm_compute; reflexivity]).
Qed.

(** ** C74 *)

Section Window.
Context {E : Env} (X : Exact E).

Lemma window_axis o r len n x : (0 < r)%Q -> 0 < n -> (len == inject_Z n * r)%Q ->
  exists a, (window_centre o r len x == o + (inject_Z a + inject_Z n / 2) * r)%Q /\
            (Qabs (window_centre o r len x - x) <= r / 2)%Q.
Proof.
  intros RP NP LE. unfold window_centre.
  assert (Qtrunc (fdiv len r) = n) as ->.
  { assert (fdiv len r == inject_Z n)%Q as -> by (rewrite (fdiv_eq X), LE; field; lra). apply Qtrunc_Z. }
  set (c := fdiv (fsub x o) r). assert (CE : (c * r == x - o)%Q). { unfold c. rewrite (fdiv_eq X), (fsub_eq X). field. lra. }
  assert (RH : (r / 2 == (1#2) * r)%Q) by field. clearbody c.
  destruct (Z.odd n) eqn:OD.
  - apply Z.odd_spec in OD as [h ->]. exists (Qfloor c - h).
    pose proof (Qfloor_le c) as F1. pose proof (Qlt_floor c) as F2. rewrite inject_Z_plus in F2. change (inject_Z 1) with 1%Q in F2.
    assert (WE : (fadd (fadd (fmul (inject_Z (Qfloor c)) r) (fdiv r 2)) o == o + (inject_Z (Qfloor c) + (1#2)) * r)%Q).
    { rewrite (fadd_eq X), (fadd_eq X), (fmul_eq X), (fdiv_eq X). field. }
    rewrite WE. split.
    + unfold Zminus. rewrite !inject_Z_plus, inject_Z_opp, inject_Z_mult. change (inject_Z 2) with 2%Q. change (inject_Z 1) with 1%Q. field.
    + set (f := inject_Z (Qfloor c)) in *. clearbody f.
      assert (f * r <= c * r)%Q by (apply Qmult_le_compat_r; lra).
      assert (c * r <= (f + 1) * r)%Q by (apply Qmult_le_compat_r; lra).
      assert (E1 : (o + (f + (1#2)) * r - x == f * r + (1#2) * r - (x - o))%Q) by ring. rewrite E1, <- CE, RH.
      assert (E2 : ((f + 1) * r == f * r + r)%Q) by ring. rewrite E2 in *.
      apply Qabs_Qle_condition. split; lra.
  - assert (Z.even n = true) as EV by (rewrite <- Z.negb_odd, OD; reflexivity). apply Z.even_spec in EV as [h ->].
    exists (Qround_away c - h). pose proof (Qround_away_near c) as F. apply Qabs_Qle_condition in F as [F1 F2].
    assert (WE : (fadd (fmul (inject_Z (Qround_away c)) r) o == o + inject_Z (Qround_away c) * r)%Q).
    { rewrite (fadd_eq X), (fmul_eq X). ring. }
    rewrite WE. split.
    + unfold Zminus. rewrite !inject_Z_plus, inject_Z_opp, inject_Z_mult. change (inject_Z 2) with 2%Q. field.
    + set (f := inject_Z (Qround_away c)) in *. clearbody f.
      assert ((c - f) * r <= (1#2) * r)%Q by (apply Qmult_le_compat_r; lra).
      assert (- (1#2) * r <= (c - f) * r)%Q by (apply Qmult_le_compat_r; lra).
      assert (E1 : (o + f * r - x == f * r - (x - o))%Q) by ring. rewrite E1, <- CE, RH.
      assert (E2 : ((c - f) * r == c * r - f * r)%Q) by ring. rewrite E2 in *.
      assert (E3 : (- (1#2) * r == - ((1#2) * r))%Q) by ring. rewrite E3 in *.
      apply Qabs_Qle_condition. split; lra.
Qed.

(** A vertex of the grid of a costmap. *)
Definition vertex (k : costmap2d) (b : idx) (w : vec) : Prop :=
  veq w (fst (k_origin k) + inject_Z (fst b) * k_resn k, snd (k_origin k) + inject_Z (snd b) * k_resn k)%Q.

Lemma below_origin r o w b : (0 < r)%Q -> (w == o + inject_Z b * r)%Q -> Qlt_bool w o = (b <? 0).
Proof.
  intros RP W. apply eq_iff_eq_true. rewrite Qlt_bool_iff, Z.ltb_lt, W.
  assert (K : (o + inject_Z b * r < o)%Q <-> (inject_Z b * r < 0 * r)%Q).
  { assert (Z0 : (0 * r == 0)%Q) by ring. rewrite Z0. split; intros; lra. }
  rewrite K, Qmult_lt_r by auto. change 0%Q with (inject_Z 0). now rewrite <- Zlt_Qlt.
Qed.

Lemma cell_of_vertex r o w b : (0 < r)%Q -> (w == o + inject_Z b * r)%Q -> Qtrunc (fdiv (fsub w o) r) = b.
Proof.
  intros RP W. assert (fdiv (fsub w o) r == inject_Z b)%Q as -> by (rewrite (fdiv_eq X), (fsub_eq X), W; field; lra). apply Qtrunc_Z.
Qed.

Lemma worldToMap_vertex k w b : (0 < k_resn k)%Q -> vertex k b w ->
  worldToMap k w = if (0 <=? fst b) && (0 <=? snd b) && (fst b <? fst (k_size k)) && (snd b <? snd (k_size k)) then Some b else None.
Proof.
  intros RP [W0 W1]. cbn [fst snd] in W0, W1. unfold worldToMap.
  rewrite (below_origin _ _ _ _ RP W0), (below_origin _ _ _ _ RP W1), (cell_of_vertex _ _ _ _ RP W0), (cell_of_vertex _ _ _ _ RP W1).
  destruct b as [b0 b1]. cbn [fst snd].
  destruct (b0 <? 0) eqn:A, (b1 <? 0) eqn:B, (0 <=? b0) eqn:C, (0 <=? b1) eqn:D; cbn [orb andb]; try lia; auto.
Qed.

Definition fits_window (k : costmap2d) (a n : idx) : bool :=
  (0 <=? fst a) && (0 <=? snd a) && (fst a + fst n <? fst (k_size k)) && (snd a + snd n <? snd (k_size k)).

Lemma window_vertex k a n o s : (0 < k_resn k)%Q -> 0 < fst n -> 0 < snd n -> vertex k a o ->
  veq s (inject_Z (fst n) * k_resn k, inject_Z (snd n) * k_resn k)%Q ->
  copyCostmapWindow k o s = if fits_window k a n then Some (Costmap2D n (k_resn k) o (copyMapRegion k a n)) else None.
Proof.
  intros RP N0 N1 VO [S0 S1]. cbn [fst snd] in S0, S1. unfold copyCostmapWindow.
  assert (VU : vertex k (fst a + fst n, snd a + snd n) (fadd (fst o) (fst s), fadd (snd o) (snd s))).
  { destruct VO as [V0 V1]. cbn [fst snd] in V0, V1. split; cbn [fst snd]; rewrite (fadd_eq X), ?V0, ?V1, ?S0, ?S1; injz; ring. }
  rewrite (worldToMap_vertex k o a RP VO), (worldToMap_vertex k _ _ RP VU). cbn [fst snd]. unfold fits_window.
  assert (EN : (fst a + fst n - fst a, snd a + snd n - snd a) = n) by (destruct n; cbn; f_equal; lia).
  destruct (0 <=? fst a) eqn:A, (0 <=? snd a) eqn:B, (fst a <? fst (k_size k)) eqn:C, (snd a <? snd (k_size k)) eqn:D,
    (0 <=? fst a + fst n) eqn:F, (0 <=? snd a + snd n) eqn:G, (fst a + fst n <? fst (k_size k)) eqn:H, (snd a + snd n <? snd (k_size k)) eqn:I;
    cbn [andb fst snd]; rewrite ?EN; auto; lia.
Qed.

End Window.

(** Both arithmetics: once the window is known to lie on the grid of the costmap. *)
Lemma window_core (E : Env) c l m n geometry a ps : let k := c_map c in
  let m1 := emptied (c_frame c) (c_now c) n (k_resn k) ps m in
  let o := (fsub (fst (pos m1)) (fdiv (fst (len m1)) 2), fsub (snd (pos m1)) (fdiv (snd (len m1)) 2)) in
  costmap_ok k -> 0 < fst n -> 0 < snd n ->
  initializeFromCostmap2DAtRobotPose c geometry m = Ret true m1 ->
  veq (len m1) (inject_Z (fst n) * k_resn k, inject_Z (snd n) * k_resn k)%Q ->
  veq ps (fst (k_origin k) + (inject_Z (fst a) + inject_Z (fst n) / 2) * k_resn k, snd (k_origin k) + (inject_Z (snd a) + inject_Z (snd n) / 2) * k_resn k)%Q ->
  copyCostmapWindow k o (len m1) = (if fits_window k a n then Some (Costmap2D n (k_resn k) o (copyMapRegion k a n)) else None) ->
  reg_ok' m ->
  exists m' b, fromCostmap2DROSAtRobotPose c geometry l m = Ret b m' /\
    geo_ok m' /\ reg_ok' m' /\ frame m' = c_frame c /\ stamp m' = c_now c /\ size m' = n /\ resn m' = k_resn k /\
    vertex k a (lower m') /\ pos m' = ps /\
    (b = true <-> 0 <= fst a /\ 0 <= snd a /\ fst a + fst n < fst (k_size k) /\ snd a + snd n < snd (k_size k)) /\
    (b = true -> made_from m m' l (c_frame c) n (k_resn k) /\
       forall i, in_range n i -> exists y v, value_at m' l i v /\ cost_at k y v /\ veq (centre m' i) (cost_centre k y)) /\
    (b = false -> layers m' = layers m /\ forall l' i, has_layer m l' -> in_range n i -> value_at m' l' i unknown).
Proof.
  intros k m1 o KO N0 N1 INI LE [W0 W1] WV R. destruct a as [a0 a1]. cbn [fst snd] in W0, W1 |- *. pose proof KO as (RP & K0 & K1 & L).
  assert (R1 : reg_ok' m1) by (apply emptied_reg; auto; lia).
  assert (GO : geo_ok m1). { constructor; auto; cbn [m1 emptied size start]. unfold in_range; cbn; lia. }
  assert (LV : vertex k (a0, a1) (lower m1)).
  { destruct LE as [L0 L1]. cbn [fst snd] in L0, L1. split; cbn [lower fst snd]; [rewrite L0|rewrite L1]; cbn [m1 emptied pos fst snd]; [rewrite W0|rewrite W1]; field. }
  assert (ADD : addLayerFromCostmap2DAtRobotPose c l m1 =
    if fits_window k (a0, a1) n
    then bind (addLayerFromCostmap2D (Costmap2D n (k_resn k) o (copyMapRegion k (a0, a1) n)) l) (fun _ => ret true) m1 else Ret false m1).
  { unfold addLayerFromCostmap2DAtRobotPose. unfold bind at 1, get_st. fold k.
    assert (Qeq_bool (resn m1) (k_resn k) = true) as -> by (apply Qeq_bool_iff; reflexivity). cbn [negb].
    fold o. rewrite WV. now destruct (fits_window k (a0, a1) n). }
  unfold fromCostmap2DROSAtRobotPose. unfold bind at 1. rewrite INI. cbn [negb]. unfold bind at 1. rewrite ADD.
  assert (FW : fits_window k (a0, a1) n = true <-> 0 <= a0 /\ 0 <= a1 /\ a0 + fst n < fst (k_size k) /\ a1 + snd n < snd (k_size k)).
  { unfold fits_window. cbn [fst snd]. lia. }
  destruct (fits_window k (a0, a1) n) eqn:FIT.
  - pose proof (proj1 FW eq_refl) as (A0 & A1 & B0 & B1).
    set (w := Costmap2D n (k_resn k) o (copyMapRegion k (a0, a1) n)).
    destruct (add_costs w l m1) as (m' & A & R' & M & LL & O & H & V); auto; [cbn; lia|cbn; lia| |].
    { cbn [w k_char k_size]. apply region_length; auto; cbn; lia. }
    unfold bind. rewrite A. cbn [ret negb]. exists m', true. split; [reflexivity|].
    pose proof M as (F1 & F2 & F3 & F4 & F5 & F6 & F7 & F8).
    assert (EX : exists_layer m1 l = exists_layer m l). { apply eq_iff_eq_true. rewrite !exists_has. apply emptied_has. }
    split. { destruct GO as [g1 g2 g3 g4]. constructor; rewrite <- ?F4, <- ?F5, <- ?F7, <- ?F8; auto. }
    split; [exact R'|]. split; [now rewrite <- F1|]. split; [now rewrite <- F2|]. split; [now rewrite <- F7|]. split; [now rewrite <- F5|].
    split. { unfold lower. rewrite <- F4, <- F6. exact LV. }
    split; [now rewrite <- F6|].
    split; [tauto|]. split; [|discriminate]. intros _. split.
    { constructor; auto; try (symmetry; assumption).
      - now rewrite LL, EX.
      - intros l' i Hl NE Hi. apply O; auto. apply emptied_at; auto. }
    intros i [I0 I1]. set (y := flip n i).
    assert (YR : in_range n y) by (unfold y, flip, in_range; cbn; lia).
    destruct (cost_exists k (a0 + fst y, a1 + snd y) KO) as [v Hv].
    { unfold in_range, y, flip in *. cbn [fst snd] in *. lia. }
    exists (a0 + fst y, a1 + snd y), v. split.
    + replace i with (flip (size m1) y).
      * apply V. split; [exact YR|]. cbn [w k_char k_size]. rewrite region_at; auto; cbn; try lia. exact (proj2 Hv).
      * unfold y, flip. cbn [m1 emptied size fst snd]. destruct i; cbn; f_equal; lia.
    + split; [exact Hv|].
      destruct LE as [L0 L1]. cbn [fst snd] in L0, L1.
      unfold centre, world_index, cost_centre, centre1. rewrite <- F4, <- F5, <- F6, <- F7, <- F8. cbn [m1 emptied size start resn fst snd].
      rewrite !Z.sub_0_r, !Z.mod_small by lia. cbn [m1 emptied len pos fst snd] in *.
      split; cbn [fst snd]; [rewrite L0|rewrite L1]; [rewrite W0|rewrite W1]; unfold y, flip; cbn [fst snd]; injz; injz; field.
  - exists m1, false. split; [reflexivity|]. split; [exact GO|]. split; [exact R1|]. split; [reflexivity|]. split; [reflexivity|].
    split; [reflexivity|]. split; [reflexivity|]. split; [exact LV|]. split; [reflexivity|].
    split; [tauto|]. split; [discriminate|]. intros _. split; [reflexivity|]. intros l' i Hl Hi. apply emptied_at; auto.
Qed.

(** A window around the robot that is a whole number of cells wide and high. It is
    centred as close to the robot as the grid of the costmap permits. If it lies in
    the costmap, off its borders with the greatest coordinates, the map has the costs
    of the costmap at their places; else the call fails and leaves an empty map. *)
Theorem C74_window : forall (E : Env), Exact E -> forall c l m x n geometry, let k := c_map c in
  costmap_ok k -> c_pose c = Some x -> 0 < fst n -> 0 < snd n ->
  veq geometry (inject_Z (fst n) * k_resn k, inject_Z (snd n) * k_resn k)%Q -> reg_ok' m ->
  exists a m' b, fromCostmap2DROSAtRobotPose c geometry l m = Ret b m' /\
    geo_ok m' /\ reg_ok' m' /\ frame m' = c_frame c /\ stamp m' = c_now c /\ size m' = n /\ resn m' = k_resn k /\
    vertex k a (lower m') /\ close (k_resn k / 2) (pos m') x /\
    (b = true <-> 0 <= fst a /\ 0 <= snd a /\ fst a + fst n < fst (k_size k) /\ snd a + snd n < snd (k_size k)) /\
    (b = true -> made_from m m' l (c_frame c) n (k_resn k) /\
       forall i, in_range n i -> exists y v, value_at m' l i v /\ cost_at k y v /\ veq (centre m' i) (cost_centre k y)) /\
    (b = false -> layers m' = layers m /\ forall l' i, has_layer m l' -> in_range n i -> value_at m' l' i unknown).
Proof.
  intros E X c l m x n geometry k KO HP N0 N1 [G0 G1] R. cbn [fst snd] in G0, G1. pose proof KO as (RP & K0 & K1 & L).
  assert (PP : forall z, 0 < z -> (0 < inject_Z z * k_resn k)%Q).
  { intros z Hz. apply Qmult_lt_0_compat; auto. change 0%Q with (inject_Z 0). now rewrite <- Zlt_Qlt. }
  destruct (window_axis X (fst (k_origin k)) (k_resn k) (fst geometry) (fst n) (fst x) RP N0 G0) as (a0 & W0 & C0).
  destruct (window_axis X (snd (k_origin k)) (k_resn k) (snd geometry) (snd n) (snd x) RP N1 G1) as (a1 & W1 & C1).
  set (ps := (window_centre (fst (k_origin k)) (k_resn k) (fst geometry) (fst x), window_centre (snd (k_origin k)) (k_resn k) (snd geometry) (snd x))).
  assert (LE : veq (len (emptied (c_frame c) (c_now c) n (k_resn k) ps m)) (inject_Z (fst n) * k_resn k, inject_Z (snd n) * k_resn k)%Q).
  { split; cbn [emptied len fst snd]; apply (fmul_eq X). }
  destruct (window_core E c l m n geometry (a0, a1) ps) as (m' & b & RUN & H1 & H2 & H3 & H4 & H5 & H6 & H7 & H8 & H9); auto.
  - unfold initializeFromCostmap2DAtRobotPose. rewrite HP. fold k. unfold bind, setFrameId, setTimestamp, modify. fold ps.
    rewrite setGeometry_any; [|rewrite G0; auto|rewrite G1; auto|auto].
    assert (cells_of geometry (k_resn k) = n) as ->; [|reflexivity].
    unfold cells_of. destruct n as [n0 n1]. cbn [fst snd] in *.
    assert (fdiv (fst geometry) (k_resn k) == inject_Z n0)%Q as -> by (rewrite (fdiv_eq X), G0; field; lra).
    assert (fdiv (snd geometry) (k_resn k) == inject_Z n1)%Q as -> by (rewrite (fdiv_eq X), G1; field; lra).
    now rewrite !Qround_away_Z.
  - split; assumption.
  - apply (window_vertex X); auto. destruct LE as [L0 L1]. cbn [fst snd] in L0, L1. fold k.
    split; cbn [fst snd]; rewrite (fsub_eq X), (fdiv_eq X); [rewrite L0|rewrite L1]; cbn [emptied pos ps fst snd]; [rewrite W0|rewrite W1]; field.
  - exists (a0, a1), m', b. split; [exact RUN|]. do 7 (split; [assumption|]). split; [rewrite H8; split; assumption|]. exact H9.
Qed.
Print Assumptions C74_window.

(** Without a robot pose nothing happens; with one, a length that is not positive
    ends the process (setGeometry's assertions). *)
Theorem C74_refused : forall (E : Env) c l m geometry, costmap_ok (c_map c) ->
  (c_pose c = None -> fromCostmap2DROSAtRobotPose c geometry l m = Ret false m) /\
  (c_pose c <> None -> (fst geometry <= 0 \/ snd geometry <= 0)%Q -> fromCostmap2DROSAtRobotPose c geometry l m = Flt AssertFailed).
Proof.
  intros E c l m g KO. unfold fromCostmap2DROSAtRobotPose, initializeFromCostmap2DAtRobotPose. split.
  - intros ->. reflexivity.
  - intros HP H. destruct (c_pose c) as [x|]; [|congruence]. unfold bind at 1. unfold bind at 1, setFrameId, modify.
    unfold bind at 1, setTimestamp, modify. unfold bind at 1. rewrite setGeometry_assert; auto. intros (A & B & _). lra.
Qed.
Print Assumptions C74_refused.

(** The windows of the test cost_map_centres in the same file, where they are
    centred, and a window that would reach the border. *)
Definition costs10 : list Z := zseq 100.
Definition offset_3x3 : ros_costmap :=
  RosCostmap (Costmap2D (10, 10) (1#2) (-6, 0)%Q costs10) "map" (Some (-37#10, 24#10)%Q) 7.
Definition offset_5x5 : ros_costmap :=
  RosCostmap (Costmap2D (10, 10) (1#2) (-12, 0)%Q costs10) "map" (Some (-97#10, 24#10)%Q) 7.

Definition outcome_of (o : out cmap bool) : option (bool * vec * list string) :=
  match o with Ret b m => Some (b, (Qred (fst (pos m)), Qred (snd (pos m))), layers m) | _ => None end.

Example C74_case : costmap_ok (c_map offset_3x3) /\ costmap_ok (c_map offset_5x5) /\
  outcome_of (fromCostmap2DROSAtRobotPose (E := binary64 BClamp) offset_3x3 (3, 3)%Q "a" (new_map [])) = Some (true, (-7#2, 5#2)%Q, ["a"%string]) /\
  outcome_of (fromCostmap2DROSAtRobotPose (E := binary64 BClamp) offset_5x5 (5#2, 5#2)%Q "a" (new_map [])) = Some (true, (-39#4, 9#4)%Q, ["a"%string]) /\
  outcome_of (fromCostmap2DROSAtRobotPose (E := exact_clamp) offset_3x3 (3, 3)%Q "a" (new_map [])) = Some (true, (-7#2, 5#2)%Q, ["a"%string]) /\
  outcome_of (fromCostmap2DROSAtRobotPose (E := exact_clamp) offset_3x3 (5, 5)%Q "a" (new_map [])) = Some (false, (-7#2, 5#2)%Q, []).
Proof. conj_vm. Qed.

(** A window of 2.6 m on a grid of 1 m becomes 3 cells wide, but is centred as if
    it were 2 cells wide: the map lies half a cell off the costmap's grid, and shows
    another cell's cost at the centre of a cell of the costmap. *)
Theorem C74_fraction_refuted : exists c geometry m' y v w, costmap_ok (c_map c) /\
  fromCostmap2DROSAtRobotPose (E := exact_wrap) c geometry "a" (new_map []) = Ret true m' /\
  cost_at (c_map c) y v /\ world_value m' "a" (cost_centre (c_map c) y) w /\ v <> w.
Proof.
  pose (c := RosCostmap (Costmap2D (10, 10) 1 (0, 0)%Q costs10) "map" (Some (11#2, 11#2)%Q) 7).
  destruct (fromCostmap2DROSAtRobotPose (E := exact_wrap) c (26#10, 26#10)%Q "a" (new_map [])) as [b m'|e m'|f] eqn:H; try (vm_compute in H; discriminate H).
  exists c, (26#10, 26#10)%Q, m', (5, 5), 55, 44. vm_compute in H. injection H as <- <-. split; [conj_vm|]. split; [vm_compute; reflexivity|].
  split; [split; [unfold in_range; cbn; lia|vm_compute; reflexivity]|]. split; [|discriminate].
  exists (2, 2). eexists. split; [unfold in_range; cbn; lia|]. split; [reflexivity|]. split; [vm_compute; reflexivity|].
  unfold contains, contains1. conj_vm.
Qed.
Print Assumptions C74_fraction_refuted.

(** A costmap of 5 cm in double arithmetic, its origin at (-1, -1). *)
Definition cm5 (x : Q) : ros_costmap :=
  RosCostmap (Costmap2D (6, 6) (rne 53 (5#100)) (-1, -1)%Q (zseq 36)) "map" (Some (rne 53 x, rne 53 x)) 7.

(** With doubles, the call can report success although it has not added the layer:
    the window has one row and column less than the map. *)
Theorem C74_lost_refuted : exists c geometry m', costmap_ok (c_map c) /\
  fromCostmap2DROSAtRobotPose (E := binary64 BClamp) c geometry "a" (new_map []) = Ret true m' /\
  size m' = (2, 2) /\ ~ has_layer m' "a".
Proof.
  destruct (fromCostmap2DROSAtRobotPose (E := binary64 BClamp) (cm5 (-95#100)) (rne 53 (1#10), rne 53 (1#10)) "a" (new_map [])) as [b m'|e m'|f] eqn:H; try (vm_compute in H; discriminate H).
  exists (cm5 (-95#100)), (rne 53 (1#10), rne 53 (1#10)), m'. vm_compute in H. injection H as <- <-. split; [conj_vm|]. split; [vm_compute; reflexivity|].
  split; [reflexivity|]. intros [d K]. discriminate K.
Qed.
Print Assumptions C74_lost_refuted.

(** With doubles, the costs can come out shifted by a whole cell. *)
Theorem C74_shifted_refuted : exists c geometry m' y v w, costmap_ok (c_map c) /\
  fromCostmap2DROSAtRobotPose (E := binary64 BClamp) c geometry "a" (new_map []) = Ret true m' /\
  cost_at (c_map c) y v /\ world_value m' "a" (cost_centre (c_map c) y) w /\ v <> w.
Proof.
  destruct (fromCostmap2DROSAtRobotPose (E := binary64 BClamp) (cm5 (-85#100)) (rne 53 (1#10), rne 53 (1#10)) "a" (new_map [])) as [b m'|e m'|f] eqn:H; try (vm_compute in H; discriminate H).
  exists (cm5 (-85#100)), (rne 53 (1#10), rne 53 (1#10)), m', (2, 2), 14, 7. vm_compute in H. injection H as <- <-. split; [conj_vm|]. split; [vm_compute; reflexivity|].
  split; [split; [unfold in_range; cbn; lia|vm_compute; reflexivity]|]. split; [|discriminate].
  exists (1, 1). eexists. split; [unfold in_range; cbn; lia|]. split; [reflexivity|]. split; [vm_compute; reflexivity|].
  unfold contains, contains1. conj_vm.
Qed.
Print Assumptions C74_shifted_refuted.

(** ** C60 *)

(** The service: it reports success without a layer when the window leaves the
    costmap, with an empty map when there is no pose, and does not survive a request
    for a length that is not positive. *)
Theorem C60_service : forall (E : Env) c length, let k := c_map c in costmap_ok k -> 0 <= c_now c < 4294967296 * 1000000000 ->
  (c_pose c = None -> exists g, costmap_service c length = Ok (true, g) /\ g_layers g = [] /\ (g_resn g == 0)%Q) /\
  (c_pose c <> None -> (fst length <= 0 \/ snd length <= 0)%Q -> costmap_service c length = Fault AssertFailed) /\
  (Exact E -> forall x n, c_pose c = Some x -> 0 < fst n -> 0 < snd n ->
     veq length (inject_Z (fst n) * k_resn k, inject_Z (snd n) * k_resn k)%Q ->
     exists g a, costmap_service c length = Ok (true, g) /\ g_resn g = k_resn k /\ veq (g_length g) length /\
       close (k_resn k / 2) (g_position g) x /\
       vertex k a (fst (g_position g) - fst (g_length g) / 2, snd (g_position g) - snd (g_length g) / 2)%Q /\
       (0 <= fst a /\ 0 <= snd a /\ fst a + fst n < fst (k_size k) /\ snd a + snd n < snd (k_size k) /\ g_layers g = ["obstacle_costs"%string] \/
        ~ (0 <= fst a /\ 0 <= snd a /\ fst a + fst n < fst (k_size k) /\ snd a + snd n < snd (k_size k)) /\ g_layers g = [])).
Proof.
  intros E c length k KO NOW. unfold costmap_service, service_callback. split; [|split].
  - intros HP. rewrite (proj1 (C74_refused E c _ _ _ KO) HP). eexists. split; [reflexivity|]. split; reflexivity.
  - intros HP HL. now rewrite (proj2 (C74_refused E c _ _ _ KO) HP HL).
  - intros X x n HP N0 N1 HG.
    assert (RN : reg_ok' (new_map [])) by (split; [apply new_map_reg; constructor|cbn; lia]).
    destruct (C74_window E X c "obstacle_costs" (new_map []) x n length KO HP N0 N1 HG RN) as (a & m' & b & RUN & GO & R' & _ & ST & SZ & RS & V & CL & B & T & F).
    rewrite RUN. fold k in B, RS, V. rewrite (toMessage_ok m' (proj1 R')) by (unfold stamp_ok; now rewrite ST). cbn [rbind].
    eexists. exists a. split; [reflexivity|]. cbn [g_layers g_resn g_length g_position].
    split; [auto|]. split; [|split; [exact CL|split; [exact V|]]].
    { destruct (g_len _ GO) as [L0 L1]. rewrite SZ, RS in L0, L1. destruct HG as [G0 G1]. cbn [fst snd] in *. split; [rewrite L0, G0|rewrite L1, G1]; reflexivity. }
    destruct b.
    + left. destruct (proj1 B eq_refl) as (A0 & A1 & A2 & A3). do 4 (split; [assumption|]). now rewrite (mf_layers _ _ _ _ _ _ (proj1 (T eq_refl))).
    + right. split; [|exact (proj1 (F eq_refl))]. intros K. apply B in K. discriminate K.
Qed.
Print Assumptions C60_service.

Example C60_service_case : costmap_ok (c_map offset_3x3) /\
  match costmap_service (E := exact_clamp) offset_3x3 (3, 3)%Q with Ok (true, g) => g_layers g = ["obstacle_costs"%string] | _ => False end /\
  match costmap_service (E := exact_clamp) offset_3x3 (5, 5)%Q with Ok (true, g) => g_layers g = [] | _ => False end.
Proof. conj_vm. Qed.
