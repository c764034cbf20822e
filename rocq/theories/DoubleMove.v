(** Moves with rounded arithmetic. *)
From Coq Require Import ZArith QArith Qround Qabs String List Bool Lia Lqa.
From Verif Require Import Base Mat GridMapMath CostMap Spec History BaseLemmas GeoLemmas CoreProofs CoreProofs2 MoveProofs MoveFinal
  DoubleSpec DoubleGeo DoubleMap.
Import ListNotations.
Open Scope Z_scope.

(** A buffer line keeps its data exactly if it shows an old place. *)
Lemma dropped_iff n s k j : 0 < n -> 
  (dropped n s k j = false <-> 0 <= (j - (s + k) mod n) mod n + k < n) /\
  (dropped n s k j = false -> (j - (s + k) mod n) mod n = (j - s) mod n - k).
Proof.
  intros Hn. unfold dropped. set (u := (j - s) mod n). set (u' := (j - (s + k) mod n) mod n).
  assert (0 <= u < n) by (apply Z.mod_pos_bound; auto).
  assert (0 <= u' < n) by (apply Z.mod_pos_bound; auto).
  assert (E1 : u' = (u - k) mod n).
  { unfold u', u. rewrite Zminus_mod_idemp_r. rewrite Zminus_mod_idemp_l. f_equal. lia. }
  assert (E2 : u = (u' + k) mod n).
  { rewrite E1, Zplus_mod_idemp_l. replace (u - k + k) with u by lia. symmetry. now apply Z.mod_small. }
  assert (K : (u - k <? 0) || (n <=? u - k) = false -> u' = u - k).
  { intros D. rewrite E1. apply Z.mod_small. lia. }
  split; [|exact K]. split.
  - intros D. rewrite (K D). lia.
  - intros D. assert (u = u' + k) by (rewrite E2; apply Z.mod_small; auto). lia.
Qed.

Section Moves.
Context {E : Env} (N : Near E) (W : Z) (HW : W <= 2 ^ 44) (P : bpol = BWrap).

Lemma move_double p m : dgeo W m -> reg_ok' m -> basics_exist m -> near_target W m p ->
  exists b rs m' s, move p m = Ret (b, rs) m' /\ dgeo W m' /\ reg_ok' m' /\ basics_exist m' /\ shifted m m' rs s /\
    displaced (blur W m) m m' s /\ close (resn m / 2 + blur W m) (pos m') p /\
    (b = true <-> s <> (0, 0)).
Proof.
  intros G R B [T0 T1].
  pose proof (d_res _ _ G) as Hr. destruct (d_size _ _ G) as [Z0 Z1]. pose proof (d_start _ _ G) as S.
  destruct (move_state p m R B S) as
    (rs & m' & H & R' & E1 & E2 & E3 & E4 & E5 & E6 & E7 & E8 & E9 & NO & V & RG); auto using bound_wraps_BWrap.
  set (k0 := index_shift1 (fsub (fst p) (fst (pos m))) (resn m)) in *.
  set (k1 := index_shift1 (fsub (snd p) (snd (pos m))) (resn m)) in *.
  assert (ST0 : fst (start m') = (fst (start m) + k0) mod fst (size m)).
  { rewrite E8; cbn [fst]. unfold bound1. rewrite P. now apply wrap1_mod. }
  assert (ST1 : snd (start m') = (snd (start m) + k1) mod snd (size m)).
  { rewrite E8; cbn [snd]. unfold bound1. rewrite P. now apply wrap1_mod. }
  assert (INJ1 : forall n, (inject_Z (n + 1) * resn m == inject_Z n * resn m + resn m)%Q).
  { intros n. rewrite inject_Z_plus. change (inject_Z 1) with 1%Q. ring. }
  rewrite INJ1 in T0, T1.
  pose proof (small_A W m HW Hr) as SA.
  destruct (axis_hyps _ _ _ _ W Hr Z0 (d_len0 _ _ G) (d_far0 _ _ G)) as (a1 & a2 & a3 & a4 & a5).
  destruct (axis_hyps _ _ _ _ W Hr Z1 (d_len1 _ _ G) (d_far1 _ _ G)) as (b1 & b2 & b3 & b4 & b5).
  pose proof (axis_basic _ _ _ _ _ Hr a1 a2 a3 a4 a5) as (X1 & X2 & X3 & _).
  pose proof (axis_basic _ _ _ _ _ Hr b1 b2 b3 b4 b5) as (Y1 & Y2 & _).
  set (d := (ulp * (inject_Z W * resn m))%Q) in *.
  assert (BL : (blur W m == 16 * d)%Q) by apply blur_eq.
  assert (EH : (resn m / 2 == (1#2) * resn m)%Q) by field.
  (* one axis *)
  assert (AX : forall n L c q, 1 <= n -> (inject_Z n * resn m - ulp * (inject_Z n * resn m) <= L)%Q ->
     (L <= inject_Z n * resn m + ulp * (inject_Z n * resn m))%Q ->
     (inject_Z n * resn m - c <= inject_Z W * resn m)%Q -> (inject_Z n * resn m + c <= inject_Z W * resn m)%Q ->
     (Qabs q + (inject_Z n * resn m + resn m) <= inject_Z W * resn m)%Q ->
     let k := index_shift1 (fsub q c) (resn m) in let c' := fadd c (position_shift1 k (resn m)) in
     (Qabs (c' - (c + inject_Z (- k) * resn m)) <= blur W m /\ Qabs (c' - q) <= resn m / 2 + blur W m /\
      Qabs c' + inject_Z n * resn m <= inject_Z W * resn m)%Q).
  { intros n L c q H1 H2 H3 H4 H5 H6 k c'.
    destruct (axis_basic _ _ _ _ _ Hr H1 H2 H3 H4 H5) as (Q1 & Q2 & _).
    assert (Q1' : (0 <= inject_Z n * resn m)%Q) by (apply Qmult_le_0_compat; [change 0%Q with (inject_Z 0); rewrite <- Zle_Qle; lia|lra]).
    pose proof (Qle_Qabs q) as P1. pose proof (Qle_Qabs (- q)) as P2. rewrite Qabs_opp in P2.
    set (nn := (inject_Z n * resn m)%Q) in *.
    destruct (shift_value N n L c (resn m) (inject_Z W * resn m) Hr H1 H2 H3 H4 H5 SA q ltac:(lra) ltac:(lra)) as [S1 S2].
    destruct (shifted_centre N n L c (resn m) (inject_Z W * resn m) Hr H1 H2 H3 H4 H5 SA q ltac:(lra) ltac:(lra)) as [C1 C2].
    fold k c' d in S1, S2, C1, C2.
    assert (EK : (inject_Z (- k) * resn m == - (inject_Z k * resn m))%Q) by (rewrite inject_Z_opp; ring).
    rewrite EK. set (kr := (inject_Z k * resn m)%Q) in *. clearbody kr c' nn d.
    split; [apply Qabs_Qle_condition; rewrite BL; split; lra|].
    split; [apply Qabs_Qle_condition; rewrite BL, EH; split; lra|].
    assert (Qabs c' <= inject_Z W * resn m - nn)%Q; [|lra]. apply Qabs_Qle_condition. split; lra. }
  destruct (AX _ _ _ (fst p) a1 a2 a3 a4 a5 T0) as (D0 & C0 & F0).
  destruct (AX _ _ _ (snd p) b1 b2 b3 b4 b5 T1) as (D1 & C1 & F1). fold k0 in D0, C0, F0. fold k1 in D1, C1, F1. clear AX.
  assert (HL : forall l, has_layer m' l <-> has_layer m l).
  { intros l. split; intros [x Hx].
    - unfold has_layer. destruct (aget (data m) l) eqn:K; eauto. rewrite (NO l K) in Hx. discriminate.
    - destruct (V l x Hx) as (d' & Hd' & _). now exists d'. }
  (* places *)
  assert (PL : forall i j, in_range (size m) i -> in_range (size m) j -> same_place m m' (- k0, - k1) i j ->
     i = j /\ dropped (fst (size m)) (fst (start m)) k0 (fst j) = false /\ dropped (snd (size m)) (snd (start m)) k1 (snd j) = false).
  { intros i j [Hi0 Hi1] [Hj0 Hj1] SP. unfold same_place, world_index in SP. rewrite E7, ST0, ST1 in SP. cbn [fst snd] in SP.
    injection SP as A1 A2.
    destruct (dropped_iff (fst (size m)) (fst (start m)) k0 (fst j) Z0) as [DI0 DE0].
    destruct (dropped_iff (snd (size m)) (snd (start m)) k1 (snd j) Z1) as [DI1 DE1].
    pose proof (Z.mod_pos_bound (fst i - fst (start m)) (fst (size m)) Z0).
    pose proof (Z.mod_pos_bound (snd i - snd (start m)) (snd (size m)) Z1).
    assert (Q0 : dropped (fst (size m)) (fst (start m)) k0 (fst j) = false) by (apply DI0; lia).
    assert (Q1 : dropped (snd (size m)) (snd (start m)) k1 (snd j) = false) by (apply DI1; lia).
    specialize (DE0 Q0). specialize (DE1 Q1). split; auto.
    apply (world_index_inj' W m); [auto|split; auto|split; auto|].
    unfold world_index. f_equal; lia. }
  assert (PN : forall j, in_range (size m) j ->
     ((forall i, in_range (size m) i -> ~ same_place m m' (- k0, - k1) i j) <->
      dropped (fst (size m)) (fst (start m)) k0 (fst j) || dropped (snd (size m)) (snd (start m)) k1 (snd j) = true)).
  { intros j Hj. split.
    - intros NS. destruct (_ || _) eqn:D; auto. exfalso. apply orb_false_iff in D as [Q0 Q1].
      destruct (dropped_iff (fst (size m)) (fst (start m)) k0 (fst j) Z0) as [DI0 DE0].
      destruct (dropped_iff (snd (size m)) (snd (start m)) k1 (snd j) Z1) as [DI1 DE1].
      apply (NS j Hj). unfold same_place, world_index. rewrite E7, ST0, ST1. cbn [fst snd].
      rewrite (DE0 Q0), (DE1 Q1). f_equal; lia.
    - intros D i Hi SP. destruct (PL i j Hi Hj SP) as (_ & Q0 & Q1). rewrite Q0, Q1 in D. discriminate. }
  eexists _, rs, m', (- k0, - k1). split; [exact H|].
  split; [|split; [exact R'|split; [|split]]].
  - constructor; rewrite ?E5, ?E6, ?E7; auto; try apply G.
    + split; cbn [fst snd]; rewrite ?ST0, ?ST1; apply Z.mod_pos_bound; auto.
    + rewrite E9; cbn [fst]. exact F0.
    + rewrite E9; cbn [snd]. exact F1.
  - intros l Hl. rewrite E4 in Hl. apply HL. now apply B.
  - constructor; [auto 12|auto| | |]; rewrite ?E7.
    + intros i j Hi Hj SP l v. destruct (PL i j Hi Hj SP) as (-> & Q0 & Q1). unfold value_at. split.
      * intros (d' & Hd' & Hv). destruct (proj1 (HL l)) as [d2 Hd2]; [now exists d'|].
        destruct (V l d2 Hd2) as (d3 & Hd3 & VV). rewrite Hd' in Hd3. injection Hd3 as <-.
        exists d2. split; auto. rewrite <- Hv, VV by auto. now rewrite Q0, Q1.
      * intros (d2 & Hd2 & Hv). destruct (V l d2 Hd2) as (d3 & Hd3 & VV). exists d3. split; auto.
        rewrite VV by auto. now rewrite Q0, Q1.
    + intros j Hj NS l Hl. apply (PN j Hj) in NS. apply cleared_iff in Hl.
      destruct (to_clear_exist m (proj1 R) B l Hl) as [d2 Hd2].
      destruct (V l d2 Hd2) as (d3 & Hd3 & VV). exists d3. split; auto.
      rewrite VV by auto. rewrite (proj2 (smem_In l _)) by auto. cbn [orb]. rewrite !andb_true_r, NS. reflexivity.
    + intros j Hj. rewrite (PN j Hj), <- (RG j Hj), existsb_exists.
      split; intros (g & Hg & Hh); exists g; split; auto; now apply region_has_iff.
  - split; [|split].
    + unfold displaced, close. rewrite E9; cbn [fst snd]. auto.
    + unfold close. rewrite E9; cbn [fst snd]. auto.
    + destruct (Z.eqb_spec k0 0) as [Q0|Q0], (Z.eqb_spec k1 0) as [Q1|Q1]; cbn; split; intros K; auto; try discriminate.
      * exfalso. apply K. f_equal; lia.
      * intros C. injection C. lia.
      * intros C. injection C. lia.
      * intros C. injection C. lia.
Qed.

Lemma at_cell_back e m m' p s w : len m' = len m -> resn m' = resn m -> displaced (blur W m) m m' s ->
  at_cell e m' p w -> at_cell (e + blur W m) m p (fst w - fst s, snd w - snd s).
Proof.
  intros E1 E2 [D0 D1] [C0 C1]. unfold at_cell, close, centre1 in *. cbn [fst snd] in *. rewrite E1, E2 in C0, C1.
  apply Qabs_Qle_condition in D0, D1, C0, C1. rewrite !Qabs_Qle_condition.
  assert (EK : forall a b, ((inject_Z (a - b) + (1#2)) * resn m == (inject_Z a + (1#2)) * resn m - inject_Z b * resn m)%Q).
  { intros. unfold Z.sub. rewrite inject_Z_plus, inject_Z_opp. ring. }
  rewrite !EK.
  set (a0 := ((inject_Z (fst w) + (1#2)) * resn m)%Q) in *. set (a1 := ((inject_Z (snd w) + (1#2)) * resn m)%Q) in *.
  set (s0 := (inject_Z (fst s) * resn m)%Q) in *. set (s1 := (inject_Z (snd s) * resn m)%Q) in *.
  set (h0 := (fst (len m) / 2)%Q) in *. set (h1 := (snd (len m) / 2)%Q) in *. clearbody a0 a1 s0 s1 h0 h1.
  split; split; lra.
Qed.

Lemma value_exists m l i : reg_ok' m -> in_range (size m) i -> has_layer m l -> exists v, value_at m l i v.
Proof.
  intros R [H0 H1] [d Hd]. destruct (r_mat _ (proj1 R) l d Hd) as (F & F1 & F2).
  destruct (proj2 (mget_Some_iff d (fst i) (snd i) F)) as [v Hv]; [rewrite F1, F2; auto|].
  exists v, d. auto.
Qed.

Lemma at_value m l i v : at_ m l i = Ok v <-> value_at m l i v.
Proof.
  unfold at_, value_at. destruct (aget (data m) l) as [d|].
  - unfold of_opt. destruct (mget d (fst i) (snd i)) as [x|] eqn:K; split.
    + intros Q. injection Q as <-. eauto.
    + intros (d' & Q & Hv). injection Q as <-. congruence.
    + discriminate.
    + intros (d' & Q & Hv). injection Q as <-. congruence.
  - split; [discriminate|]. intros (d' & Q & _). discriminate.
Qed.

Lemma at_none m l i : ~ has_layer m l -> at_ m l i = Throw OutOfRange.
Proof. intros H. unfold at_. destruct (aget (data m) l) as [d|] eqn:K; auto. exfalso. apply H. now exists d. Qed.

Lemma has_layer_dec m l : has_layer m l \/ ~ has_layer m l.
Proof. unfold has_layer. destruct (aget (data m) l) as [d|]; [left; eauto|right; intros [d K]; discriminate]. Qed.

Lemma at_same m m' l i j : reg_ok' m -> reg_ok' m' -> in_range (size m) i -> in_range (size m') j ->
  (has_layer m' l <-> has_layer m l) -> (forall v, value_at m' l j v <-> value_at m l i v) -> at_ m' l j = at_ m l i.
Proof.
  intros R R' Hi Hj HL HV. destruct (has_layer_dec m l) as [H|H].
  - destruct (value_exists m l i R Hi H) as [v Hv]. rewrite (proj2 (at_value m l i v) Hv).
    apply at_value. now apply HV.
  - rewrite !at_none; auto. tauto.
Qed.

Lemma blur_same m m' : resn m' = resn m -> blur W m' = blur W m.
Proof. intros H. unfold blur. now rewrite H. Qed.

Definition many (n : nat) (e : Q) : Q := (inject_Z (Z.of_nat n) * e)%Q.

Lemma many_S n e : (many (S n) e == many n e + e)%Q.
Proof. unfold many. rewrite Nat2Z.inj_succ. unfold Z.succ. rewrite inject_Z_plus. change (inject_Z 1) with 1%Q. ring. Qed.

Lemma many_pos n e : (0 <= e)%Q -> (0 <= many n e)%Q.
Proof. intros H. unfold many. apply Qmult_le_0_compat; auto. change 0%Q with (inject_Z 0). rewrite <- Zle_Qle. lia. Qed.

Lemma W_pos m : dgeo W m -> 0 <= W.
Proof.
  intros G. destruct (d_size _ _ G) as [Z0 _]. pose proof (d_res _ _ G) as Hr. pose proof (d_far0 _ _ G) as F.
  assert (Q : (inject_Z 0 * resn m <= inject_Z W * resn m)%Q).
  { pose proof (Qabs_nonneg (fst (pos m))) as A. change (inject_Z 0) with 0%Q.
    assert (0 * resn m <= inject_Z (fst (size m)) * resn m)%Q.
    { apply Qmult_le_compat_r; [change 0%Q with (inject_Z 0); rewrite <- Zle_Qle; lia|lra]. }
    assert (0 * resn m == 0)%Q by ring. lra. }
  apply Qmult_le_r in Q; auto. now rewrite <- Zle_Qle in Q.
Qed.

Lemma trace_double m tr m' : dgeo W m -> reg_ok' m -> basics_exist m ->
  (forall p, In p (map snd tr) -> near_target W m p) -> move_trace m tr m' ->
  (dgeo W m' /\ reg_ok' m' /\ basics_exist m' /\ layers m' = layers m /\ frame m' = frame m /\ stamp m' = stamp m /\
   basic m' = basic m /\ len m' = len m /\ resn m' = resn m /\ size m' = size m /\
   (forall l, has_layer m' l <-> has_layer m l)) /\
  (exists s, displaced (many (List.length tr) (blur W m)) m m' s) /\
  (forall p w e, at_cell e m' p w -> (e + many (List.length tr) (blur W m) <= (1#4) * resn m)%Q -> in_range (size m) w ->
     ((forall mi, In mi (map fst tr) -> isInside mi p = true) -> forall l, atPosition m' l p = atPosition m l p) /\
     ((exists mi, In mi (map fst tr) /\ isInside mi p = false) -> forall l, cleared_layer m l -> atPosition m' l p = Ok unknown)).
Proof.
  intros G R B NT H. induction H as [|tr m1 q b rs m2 H IH Hm].
  - split; [repeat (split; [solve [auto]|]); tauto|]. split.
    + exists (0, 0). unfold displaced, close, many; cbn [fst snd List.length Z.of_nat].
      rewrite !Qabs_Qle_condition. assert (forall a x, (a - (a + 0 * x) == 0)%Q) as Q0 by (intros; ring).
      assert (0 * blur W m == 0)%Q as -> by ring. change (inject_Z 0) with 0%Q. rewrite !Q0. split; split; lra.
    + intros p w e _ _ _. split; auto. intros (mi & [] & _).
  - destruct IH as ((G1 & R1 & B1 & A1 & A2 & A3 & A4 & A5 & A6 & A7 & A8) & (s & Ds) & IH).
    { intros p Hp. apply NT. rewrite map_app, in_app_iff. auto. }
    assert (NQ : near_target W m1 q).
    { unfold near_target. rewrite A6, A7. apply NT. rewrite map_app, in_app_iff; cbn; auto. }
    destruct (move_double q m1 G1 R1 B1 NQ) as (b' & rs' & m2' & s' & Hm' & G2 & R2 & B2 & SH & DI & _).
    rewrite Hm in Hm'. injection Hm' as <- <- <-.
    destruct (sh_same _ _ _ _ SH) as (S1 & S2 & S3 & S4 & S5 & S6 & S7).
    assert (BL : blur W m1 = blur W m) by now apply blur_same. rewrite BL in DI.
    pose proof (W_pos m G) as WP. pose proof (blur_pos W m WP (d_res _ _ G)) as BP.
    assert (LEN : List.length (tr ++ [(m1, q)]) = S (List.length tr)) by (rewrite app_length; cbn; lia).
    pose proof (many_S (List.length tr) (blur W m)) as MS. pose proof (many_pos (List.length tr) _ BP) as MP.
    rewrite LEN. set (mm := many (S (List.length tr)) (blur W m)) in *. clearbody mm.
    split; [|split].
    + repeat (split; [solve [auto | congruence]|]). intros l. rewrite (sh_layers _ _ _ _ SH l). auto.
    + exists (fst s + fst s', snd s + snd s'). destruct Ds as [D0 D1], DI as [I0 I1].
      unfold displaced, close. cbn [fst snd] in *. rewrite A6 in I0, I1.
      apply Qabs_Qle_condition in D0, D1, I0, I1. rewrite !Qabs_Qle_condition, !inject_Z_plus.
      assert (EK : forall a b x, ((a + b) * x == a * x + b * x)%Q) by (intros; ring). rewrite !EK.
      set (v0 := (inject_Z (fst s) * resn m)%Q) in *. set (v1 := (inject_Z (snd s) * resn m)%Q) in *.
      set (u0 := (inject_Z (fst s') * resn m)%Q) in *. set (u1 := (inject_Z (snd s') * resn m)%Q) in *. clearbody v0 v1 u0 u1.
      split; split; lra.
    + intros p w e AC HE Hw.
      assert (Hw2 : in_range (size m2) w) by (rewrite S7, A7; auto).
      assert (E2 : (e <= (1#4) * resn m2)%Q) by (rewrite S6, A6; lra).
      destruct (at_cell_lookup N W HW e m2 p w G2 E2 AC) as [_ L2]. destruct (L2 Hw2) as (j & Gj & Rj & Wj). clear L2.
      rewrite <- BL in DI.
      pose proof (at_cell_back e m1 m2 p s' w S5 S6 DI AC) as AC1. rewrite BL in AC1.
      set (w1 := (fst w - fst s', snd w - snd s')) in *.
      assert (E1 : (e + blur W m <= (1#4) * resn m1)%Q) by (rewrite A6; lra).
      destruct (at_cell_lookup N W HW _ m1 p w1 G1 E1 AC1) as [I1 L1].
      assert (CL : forall l, cleared_layer m l <-> cleared_layer m1 l).
      { intros l. unfold cleared_layer. rewrite A4, A1. tauto. }
      assert (Dec : in_range (size m1) w1 \/ ~ in_range (size m1) w1).
      { unfold in_range. destruct (Z_lt_dec (fst w1) 0), (Z_lt_dec (snd w1) 0),
          (Z_lt_dec (fst w1) (fst (size m1))), (Z_lt_dec (snd w1) (snd (size m1))); lia. }
      destruct Dec as [IN|OUT].
      * destruct (L1 IN) as (i & Gi & Ri & Wi).
        assert (SP : same_place m1 m2 s' i j).
        { unfold same_place. rewrite Wj, Wi. unfold w1; cbn [fst snd]. destruct w; cbn; f_equal; lia. }
        assert (AT : forall l, atPosition m2 l p = atPosition m1 l p).
        { intros l. unfold atPosition. rewrite Gj, Gi. apply at_same; auto.
          - apply (sh_layers _ _ _ _ SH).
          - apply (sh_kept _ _ _ _ SH i j Ri Rj SP). }
        assert (IN' : in_range (size m) w1) by (rewrite <- A7; auto).
        destruct (IH p w1 (e + blur W m)%Q AC1 ltac:(lra) IN') as [J1 J2]. split.
        -- intros All l. rewrite AT. apply J1. intros mi Hi. apply All. rewrite map_app, in_app_iff; auto.
        -- intros (mi & Hmi & Out) l Hl. rewrite AT. apply J2; auto. rewrite map_app, in_app_iff in Hmi.
           destruct Hmi as [Hmi|[<-|[]]]; [eauto|]. apply I1 in IN. cbn [fst] in Out. congruence.
      * split.
        -- intros All l. exfalso. apply OUT, I1, All. rewrite map_app, in_app_iff; cbn; auto.
        -- intros _ l Hl. unfold atPosition. rewrite Gj. apply at_value.
           apply (sh_new _ _ _ _ SH); [auto| |now apply CL].
           intros i Hi SP. apply OUT. unfold same_place in SP. rewrite Wj in SP.
           replace w1 with (world_index m1 i); [now apply (world_range W m1 i)|].
           unfold w1. rewrite SP; cbn [fst snd]. destruct (world_index m1 i); cbn. f_equal; lia.
Qed.

Lemma trace_total m : dgeo W m -> reg_ok' m -> basics_exist m -> forall ps, (forall p, In p ps -> near_target W m p) ->
  exists tr m', move_trace m tr m' /\ map snd tr = ps.
Proof.
  intros G R B ps. induction ps as [|p ps IH] using rev_ind; intros H.
  - exists [], m. split; constructor.
  - destruct IH as (tr & m1 & T & L). { intros q Hq. apply H. rewrite in_app_iff; auto. }
    destruct (trace_double m tr m1 G R B) as ((G1 & R1 & B1 & _ & _ & _ & _ & _ & A6 & A7 & _) & _ & _); auto.
    { intros q Hq. apply H. rewrite L in Hq. rewrite in_app_iff; auto. }
    assert (NQ : near_target W m1 p).
    { unfold near_target. rewrite A6, A7. apply H. rewrite in_app_iff; cbn; auto. }
    destruct (move_double p m1 G1 R1 B1 NQ) as (b & rs & m2 & s & Hm & _).
    exists (tr ++ [(m1, p)]), m2. split; [econstructor; eauto|]. rewrite map_app, L. reflexivity.
Qed.

End Moves.
