(** Property C101 in double arithmetic: moves inside a loop drift by a blur each. *)
From Coq Require Import ZArith QArith Qabs String List Bool Lia Lqa.
From Verif Require Import Base BaseLemmas Mat GridMapMath GridIter CostMap Iterators Loops Spec History GeoLemmas CoreProofs CoreProofs2 MoveProofs MoveFinal CoreFinal
  FloatLemmas DoubleSpec DoubleGeo DoubleMap DoubleMove Samples PropDouble PropLoops.
Import ListNotations.
Open Scope Z_scope.

(** Moves to targets near the map, and writes of cells. *)
Definition near_moves (W : Z) (m : cmap) (o : op) : Prop :=
  match o with
  | OpMove p => near_target W m p
  | OpAt l i _ => In l (layers m) /\ in_range (size m) i
  | _ => False
  end.

Section Drift.
Context {E : Env} (N : Near E) (W : Z) (HW : W <= 2 ^ 44) (P : bpol = BWrap).

Definition drift1 (e : Q) (n s0 : Z) (r p0 p : Q) (s z : Z) : Prop := (Qabs (p - (p0 + inject_Z z * r)) <= e)%Q /\ (z + s - s0) mod n = 0.

Record drifted (c : nat) (m m' : cmap) : Prop :=
  { r_geo : dgeo W m'; r_reg : reg_ok' m'; r_basic : basics_exist m'; r_layers : layers m' = layers m;
    r_size : size m' = size m; r_res : resn m' = resn m; r_len : len m' = len m;
    r_row : exists z, drift1 (many c (blur W m)) (fst (size m)) (fst (start m)) (resn m) (fst (pos m)) (fst (pos m')) (fst (start m')) z;
    r_col : exists z, drift1 (many c (blur W m)) (snd (size m)) (snd (start m)) (resn m) (snd (pos m)) (snd (pos m')) (snd (start m')) z }.

Lemma many_le a b e : (a <= b)%nat -> (0 <= e)%Q -> (many a e <= many b e)%Q.
Proof. intros H H0. unfold many. apply Qmult_le_compat_r; auto. rewrite <- Zle_Qle. lia. Qed.

Lemma drifted_le a b m m' : dgeo W m -> (a <= b)%nat -> drifted a m m' -> drifted b m m'.
Proof.
  intros G H [A1 A2 A3 A4 A5 A6 A7 [z0 [Z0 Z0']] [z1 [Z1 Z1']]]. pose proof (many_le a b _ H (blur_pos W m (W_pos W m G) (d_res _ _ G))) as L.
  constructor; auto; [exists z0|exists z1]; (split; [eapply Qle_trans; eauto|assumption]).
Qed.

Lemma drifted_refl m : dgeo W m -> reg_ok' m -> basics_exist m -> drifted 0 m m.
Proof.
  intros G R B. constructor; auto; exists 0; split;
  try (match goal with |- (0 + ?s - ?s) mod _ = 0 => replace (0 + s - s) with 0 by lia end; reflexivity);
  (unfold many; cbn [Z.of_nat]; change (inject_Z 0) with 0%Q; apply Qabs_Qle_condition; split; lra).
Qed.

(** One move of one axis. *)
Lemma move_turn p m : dgeo W m -> reg_ok' m -> basics_exist m -> near_target W m p ->
  exists b rs m' k0 k1, move p m = Ret (b, rs) m' /\ dgeo W m' /\ reg_ok' m' /\ basics_exist m' /\
    layers m' = layers m /\ size m' = size m /\ resn m' = resn m /\ len m' = len m /\
    (Qabs (fst (pos m') - (fst (pos m) - inject_Z k0 * resn m)) <= blur W m)%Q /\ fst (start m') = (fst (start m) + k0) mod fst (size m) /\
    (Qabs (snd (pos m') - (snd (pos m) - inject_Z k1 * resn m)) <= blur W m)%Q /\ snd (start m') = (snd (start m) + k1) mod snd (size m).
Proof.
  intros G R B T. destruct (move_double N W HW P p m G R B T) as (b & rs & m' & s & H & G' & R' & B' & SH & _).
  destruct T as [T0 T1]. pose proof (d_res _ _ G) as Hr. destruct (d_size _ _ G) as [Z0 Z1]. pose proof (d_start _ _ G) as S.
  destruct (move_state p m R B S) as (rs2 & m2 & H2 & _ & _ & _ & _ & _ & _ & _ & _ & E8 & E9 & _); auto using bound_wraps_BWrap.
  rewrite H in H2. injection H2 as _ _ <-. destruct (sh_same _ _ _ _ SH) as (S1 & S2 & S3 & S4 & S5 & S6 & S7).
  set (k0 := index_shift1 (fsub (fst p) (fst (pos m))) (resn m)) in *.
  set (k1 := index_shift1 (fsub (snd p) (snd (pos m))) (resn m)) in *.
  exists b, rs, m', k0, k1. repeat (split; [assumption|]).
  assert (INJ1 : forall n, (inject_Z (n + 1) * resn m == inject_Z n * resn m + resn m)%Q).
  { intros n. rewrite inject_Z_plus. change (inject_Z 1) with 1%Q. ring. }
  rewrite INJ1 in T0, T1. pose proof (small_A W m HW Hr) as SA.
  destruct (axis_hyps _ _ _ _ W Hr Z0 (d_len0 _ _ G) (d_far0 _ _ G)) as (a1 & a2 & a3 & a4 & a5).
  destruct (axis_hyps _ _ _ _ W Hr Z1 (d_len1 _ _ G) (d_far1 _ _ G)) as (b1 & b2 & b3 & b4 & b5).
  set (d := (ulp * (inject_Z W * resn m))%Q) in *. assert (BL : (blur W m == 16 * d)%Q) by apply blur_eq.
  assert (AX : forall n L c q, 1 <= n -> (inject_Z n * resn m - ulp * (inject_Z n * resn m) <= L)%Q ->
     (L <= inject_Z n * resn m + ulp * (inject_Z n * resn m))%Q ->
     (inject_Z n * resn m - c <= inject_Z W * resn m)%Q -> (inject_Z n * resn m + c <= inject_Z W * resn m)%Q ->
     (Qabs q + (inject_Z n * resn m + resn m) <= inject_Z W * resn m)%Q ->
     let k := index_shift1 (fsub q c) (resn m) in let c' := fadd c (position_shift1 k (resn m)) in
     (Qabs (c' - (c - inject_Z k * resn m)) <= blur W m)%Q).
  { intros n L c q H1 H2 H3 H4 H5 H6 k c'.
    destruct (axis_basic _ _ _ _ _ Hr H1 H2 H3 H4 H5) as (Q1 & Q2 & _).
    assert (Q1' : (0 <= inject_Z n * resn m)%Q) by (apply Qmult_le_0_compat; [change 0%Q with (inject_Z 0); rewrite <- Zle_Qle; lia|lra]).
    pose proof (Qle_Qabs q) as P1. pose proof (Qle_Qabs (- q)) as P2. rewrite Qabs_opp in P2.
    set (nn := (inject_Z n * resn m)%Q) in *.
    destruct (shifted_centre N n L c (resn m) (inject_Z W * resn m) Hr H1 H2 H3 H4 H5 SA q ltac:(lra) ltac:(lra)) as [C1 C2].
    fold k c' d in C1, C2. set (kr := (inject_Z k * resn m)%Q) in *. clearbody kr c' nn.
    assert (0 <= d)%Q by lra. apply Qabs_Qle_condition. rewrite BL. split; lra. }
  split; [rewrite E9; exact (AX _ _ _ _ a1 a2 a3 a4 a5 T0)|].
  split. { rewrite E8; cbn [fst]. unfold bound1. rewrite P. now apply wrap1_mod. }
  split; [rewrite E9; exact (AX _ _ _ _ b1 b2 b3 b4 b5 T1)|].
  rewrite E8; cbn [snd]. unfold bound1. rewrite P. now apply wrap1_mod.
Qed.

Lemma drift1_step c b n s0 r p0 p s z p' k : drift1 (many c b) n s0 r p0 p s z -> (Qabs (p' - (p - inject_Z k * r)) <= b)%Q ->
  drift1 (many (S c) b) n s0 r p0 p' ((s + k) mod n) (z - k).
Proof.
  intros [D Z] D'. split.
  - pose proof (many_S c b) as MS. set (mm := many (S c) b) in *. set (mc := many c b) in *. clearbody mm mc.
    assert (EK : (inject_Z (z - k) * r == inject_Z z * r - inject_Z k * r)%Q) by (unfold Zminus; rewrite inject_Z_plus, inject_Z_opp; ring).
    rewrite EK. set (zr := (inject_Z z * r)%Q) in *. set (kr := (inject_Z k * r)%Q) in *. clearbody zr kr.
    apply Qabs_Qle_condition in D as [? ?], D' as [? ?]. apply Qabs_Qle_condition. split; lra.
  - replace (z - k + (s + k) mod n - s0) with ((z - k - s0) + (s + k) mod n) by lia. rewrite Zplus_mod_idemp_r.
    replace (z - k - s0 + (s + k)) with (z + s - s0) by lia. exact Z.
Qed.

Lemma drifted_move c p m m1 : drifted c m m1 -> near_target W m p -> exists b rs m2, move p m1 = Ret (b, rs) m2 /\ drifted (S c) m m2.
Proof.
  intros [A1 A2 A3 A4 A5 A6 A7 [z0 Z0] [z1 Z1]] T.
  assert (T1 : near_target W m1 p) by (unfold near_target; now rewrite A5, A6).
  destruct (move_turn p m1 A1 A2 A3 T1) as (b & rs & m2 & k0 & k1 & H & G2 & R2 & B2 & E1 & E2 & E3 & E4 & D0 & S0 & D1 & S1).
  exists b, rs, m2. split; [exact H|]. rewrite (blur_same W m m1 A6), A6 in D0, D1. rewrite A5 in S0, S1.
  constructor; auto; try congruence.
  - exists (z0 - k0). rewrite S0. now apply (drift1_step _ _ _ _ _ _ (fst (pos m1))).
  - exists (z1 - k1). rewrite S1. now apply (drift1_step _ _ _ _ _ _ (snd (pos m1))).
Qed.

Lemma drifted_write c l i v m m1 : drifted c m m1 -> In l (layers m) -> in_range (size m) i ->
  exists m2, at_set l i v m1 = Ret tt m2 /\ drifted c m m2.
Proof.
  intros T Hl Hi. pose proof (r_reg _ _ _ T) as [R S].
  assert (HL : has_layer m1 l). { apply exists_has, (akeys_has _ _ R). now rewrite (r_layers _ _ _ T). }
  destruct (at_set_ok l i v m1 R HL) as (m2 & H & _ & _ & L2 & M2 & X2); [now rewrite (r_size _ _ _ T)|].
  exists m2. split; [exact H|]. pose proof (pres_at_set l i v m1 (conj R S)) as PP. rewrite H in PP.
  destruct M2 as (F1 & F2 & F3 & F4 & F5 & F6 & F7 & F8).
  destruct T as [G0 R0 B0 L0 S0 D0 N0 Z0 Z1]. constructor; rewrite <- ?F4, <- ?F5, <- ?F6, <- ?F7, <- ?F8; auto.
  - destruct G0 as [g1 g2 g3 g4 g5 g6 g7]. constructor; rewrite <- ?F4, <- ?F5, <- ?F6, <- ?F7, <- ?F8; auto.
  - intros k Hk. rewrite <- F3 in Hk. apply exists_has. rewrite X2. now apply exists_has, B0.
  - now rewrite L2.
Qed.

Lemma drifted_calls os m : dgeo W m -> forall c m1, drifted c m m1 -> Forall (near_moves W m) os ->
  exists m2, mfor os run_op m1 = Ret tt m2 /\ drifted (c + List.length os) m m2.
Proof.
  intros G. induction os as [|o os IH]; intros c m1 T F; cbn [mfor List.length].
  - exists m1. rewrite Nat.add_0_r. auto.
  - inversion F as [|? ? O F']; subst.
    assert (K : exists m2, run_op o m1 = Ret tt m2 /\ drifted (S c) m m2).
    { destruct o; cbn [near_moves] in O; try contradiction; cbn [run_op].
      - destruct O as [O1 O2]. destruct (drifted_write c l i v m m1 T O1 O2) as (m2 & H & T2). exists m2. split; auto.
        apply (drifted_le c); auto.
      - destruct (drifted_move c p m m1 T O) as (b & rs & m2 & H & T2). exists m2. split; [|exact T2]. unfold ignore, bind. now rewrite H. }
    destruct K as (m2 & -> & T2). replace (c + S (List.length os))%nat with (S c + List.length os)%nat by lia. now apply IH.
Qed.

Lemma drifted_loop calls k m : dgeo W m -> forall vs c m1, drifted c m m1 ->
  (forall i m2, In i vs -> Forall (near_moves W m) (calls i m2) /\ (List.length (calls i m2) <= k)%nat) ->
  exists tr m', mfor vs (calls_body calls) m1 = Ret tt m' /\ map fst tr = vs /\ executed (calls_body calls) tr m1 m' /\
    drifted (c + List.length vs * k) m m' /\ (forall i mi, In (i, mi) tr -> drifted (c + List.length vs * k) m mi).
Proof.
  intros G. induction vs as [|i vs IH]; intros c m1 T HV; cbn [mfor List.length].
  - exists [], m1. cbn [Nat.mul]. rewrite Nat.add_0_r. split; [reflexivity|]. split; [reflexivity|]. split; [constructor|]. split; [exact T|]. intros ? ? [].
  - destruct (HV i m1 (or_introl eq_refl)) as [F L]. destruct (drifted_calls (calls i m1) m G c m1 T F) as (m2 & H & T2).
    apply (drifted_le _ (c + k)) in T2; [|exact G|lia].
    destruct (IH (c + k)%nat m2 T2) as (tr & m' & H' & V' & X' & T' & A'); [intros; apply HV; now right|].
    assert (B : calls_body calls i m1 = Ret tt m2) by exact H. rewrite B, H'.
    replace (c + S (List.length vs) * k)%nat with (c + k + List.length vs * k)%nat by lia.
    exists ((i, m1) :: tr), m'. split; [reflexivity|]. split; [cbn; congruence|]. split; [econstructor; eauto|]. split; [exact T'|].
    intros j mj [J|J]; [injection J as <- <-|eauto]. apply (drifted_le c); auto. lia.
Qed.

(** Two indices of an axis at nearly the same place. *)
Lemma drift1_inj e n s0 r p0 L p1 s1 z1 i1 p2 s2 z2 i2 x1 x2 f g : (0 < r)%Q -> 0 <= i1 < n -> 0 <= i2 < n ->
  drift1 e n s0 r p0 p1 s1 z1 -> drift1 e n s0 r p0 p2 s2 z2 ->
  (Qabs (x1 - centre1 L p1 r ((i1 - s1) mod n)) <= f)%Q -> (Qabs (x2 - centre1 L p2 r ((i2 - s2) mod n)) <= f)%Q ->
  (Qabs (x1 - x2) <= g)%Q -> (2 * (e + f) + g < r)%Q -> i1 = i2.
Proof.
  intros Hr I1 I2 [P1 Z1] [P2 Z2] X1 X2 XX LT. unfold centre1 in X1, X2.
  set (a := (i1 - s1) mod n) in *. set (b := (i2 - s2) mod n) in *.
  assert (K : (Qabs (inject_Z (z1 - a - (z2 - b)) * r) < r)%Q).
  { assert (EK : (inject_Z (z1 - a - (z2 - b)) * r == inject_Z z1 * r - inject_Z a * r - (inject_Z z2 * r - inject_Z b * r))%Q).
    { unfold Zminus. rewrite !inject_Z_plus, !inject_Z_opp, !inject_Z_plus, !inject_Z_opp. ring. }
    assert (EA : forall c, ((inject_Z c + (1#2)) * r == inject_Z c * r + (1#2) * r)%Q) by (intros; ring).
    rewrite EK. rewrite EA in X1, X2. set (L2 := (L / 2)%Q) in *.
    set (z1r := (inject_Z z1 * r)%Q) in *. set (z2r := (inject_Z z2 * r)%Q) in *. set (ar := (inject_Z a * r)%Q) in *. set (br := (inject_Z b * r)%Q) in *.
    clearbody L2 z1r z2r ar br.
    apply Qabs_Qle_condition in P1 as [? ?], P2 as [? ?], X1 as [? ?], X2 as [? ?], XX as [? ?].
    apply Qabs_case; intros; lra. }
  assert (K' : z1 - a = z2 - b).
  { set (t := z1 - a - (z2 - b)) in *. destruct (Z.eq_dec t 0) as [T|T]; [lia|exfalso].
    rewrite Qabs_Qmult in K. rewrite (Qabs_pos r) in K by lra.
    assert (1 <= Qabs (inject_Z t))%Q.
    { change 1%Q with (inject_Z 1). unfold Qabs, inject_Z. unfold Qle. cbn. lia. }
    assert (1 * r <= Qabs (inject_Z t) * r)%Q by (apply Qmult_le_compat_r; lra). lra. }
  apply (turned1_inj n s0 r p0 L (p0 + inject_Z z1 * r) s1 z1 i1 (p0 + inject_Z z2 * r) s2 z2 i2); auto; try (split; [reflexivity|assumption]).
  unfold centre1. fold a b.
  assert (Kq : (inject_Z z1 - inject_Z a == inject_Z z2 - inject_Z b)%Q).
  { assert (Q1 : (inject_Z (z1 - a) == inject_Z (z2 - b))%Q) by now rewrite K'. unfold Zminus in Q1. rewrite !inject_Z_plus, !inject_Z_opp in Q1. lra. }
  setoid_replace (p0 + inject_Z z1 * r + L / 2 - (inject_Z a + (1#2)) * r)%Q with (p0 + L / 2 - (1#2) * r + (inject_Z z1 - inject_Z a) * r)%Q by ring.
  rewrite Kq. ring.
Qed.
End Drift.

Lemma range_length n vs : 0 <= fst n -> 0 <= snd n -> NoDup vs -> (forall i, In i vs -> in_range n i) -> (List.length vs <= Z.to_nat (fst n * snd n))%nat.
Proof.
  intros N0 N1 ND H.
  set (sq := fun k => map Z.of_nat (seq 0 (Z.to_nat k))).
  assert (I : incl vs (list_prod (sq (fst n)) (sq (snd n)))).
  { intros [a b] Hi. apply H in Hi as [A B]. cbn [fst snd] in A, B. apply in_prod; apply in_map_iff; [exists (Z.to_nat a)|exists (Z.to_nat b)];
    (split; [lia|]); apply in_seq; lia. }
  apply (NoDup_incl_length ND) in I. eapply Nat.le_trans; [exact I|]. etransitivity; [apply Nat.eq_le_incl, prod_length|].
  unfold sq. rewrite !map_length, !seq_length. rewrite Z2Nat.inj_mul; lia.
Qed.

(** With at most [k] calls in an iteration, and so many blurs together less than a
    quarter of a cell, two iterations are at least half a cell apart. *)
Theorem C101_double : forall (E : Env), real_or_double E -> bpol = BWrap -> forall W calls (k : nat) m, W <= 2 ^ 44 ->
  dgeo W m -> reg_ok' m -> basics_exist m ->
  (forall i m1, in_range (size m) i -> Forall (near_moves W m) (calls i m1) /\ (List.length (calls i m1) <= k)%nat) ->
  exists tr m', map_loop (calls_body calls) m = Ret tt m' /\ executed (calls_body calls) tr m m' /\
    (forall i, In i (map fst tr) <-> in_range (size m) i) /\ NoDup (map fst tr) /\
    dgeo W m' /\ reg_ok' m' /\ size m' = size m /\
    (forall i mi, In (i, mi) tr -> (forall l, In l (layers m) -> exists v, at_ mi l i = Ok v) /\ exists p, getPosition mi i = Some p) /\
    ((inject_Z (fst (size m) * snd (size m) * Z.of_nat k + 1) * blur W m <= (1#4) * resn m)%Q ->
     forall i mi j mj p q e, In (i, mi) tr -> In (j, mj) tr -> getPosition mi i = Some p -> getPosition mj j = Some q ->
       close e p q -> (e < (1#2) * resn m)%Q -> i = j).
Proof.
  intros E RD P W calls k m HW G R B C. pose proof (near_real E RD) as N.
  destruct (C101_map E (calls_body calls) m (d_start _ _ G)) as (vs & _ & ND & I & L & _).
  destruct (drifted_loop N W HW P calls k m G vs 0 m (drifted_refl W m G R B)) as (tr & m' & H & V & XE & T & A); [intros i m1 Hi; now apply C, I|].
  exists tr, m'. rewrite L, V. split; [exact H|]. split; [exact XE|]. split; [exact I|]. split; [exact ND|].
  split; [apply T|]. split; [apply T|]. split; [apply T|].
  assert (RG : forall i mi, In (i, mi) tr -> in_range (size m) i).
  { intros i mi Hi. apply I. rewrite <- V. now apply (in_map fst) in Hi. }
  split.
  - intros i mi Hi. pose proof (A i mi Hi) as Ti. pose proof (r_reg _ _ _ _ Ti) as [Ri Si]. split.
    + intros l Hl. destruct (reg_value mi l i Ri) as [v Hv].
      * apply exists_has, (akeys_has _ _ Ri). now rewrite (r_layers _ _ _ _ Ti).
      * rewrite (r_size _ _ _ _ Ti). eauto.
      * exists v. now apply CoreProofs2.at_value.
    + destruct (position_close N W HW mi i (r_geo _ _ _ _ Ti)) as (p & Hp & _); [rewrite (r_size _ _ _ _ Ti); eauto|]. now exists p.
  - intros HB i mi j mj p q e Hi Hj Hp Hq [V0 V1] HE. pose proof (A i mi Hi) as Ti. pose proof (A j mj Hj) as Tj.
    pose proof (RG _ _ Hi) as Ri. pose proof (RG _ _ Hj) as Rj.
    destruct (position_close N W HW mi i (r_geo _ _ _ _ Ti)) as (p' & Hp' & P0 & P1); [now rewrite (r_size _ _ _ _ Ti)|].
    destruct (position_close N W HW mj j (r_geo _ _ _ _ Tj)) as (q' & Hq' & Q0 & Q1); [now rewrite (r_size _ _ _ _ Tj)|].
    rewrite Hp in Hp'. injection Hp' as <-. rewrite Hq in Hq'. injection Hq' as <-.
    unfold centre, world_index in P0, P1, Q0, Q1. cbn [fst snd] in P0, P1, Q0, Q1.
    rewrite (r_size _ _ _ _ Ti), (r_res _ _ _ _ Ti), (r_len _ _ _ _ Ti), (blur_same W m mi (r_res _ _ _ _ Ti)) in P0, P1.
    rewrite (r_size _ _ _ _ Tj), (r_res _ _ _ _ Tj), (r_len _ _ _ _ Tj), (blur_same W m mj (r_res _ _ _ _ Tj)) in Q0, Q1.
    destruct (r_row _ _ _ _ Ti) as [a0 A0], (r_col _ _ _ _ Ti) as [a1 A1], (r_row _ _ _ _ Tj) as [b0 B0], (r_col _ _ _ _ Tj) as [b1 B1].
    destruct Ri as [Ri0 Ri1], Rj as [Rj0 Rj1]. pose proof (d_res _ _ G) as Hr.
    assert (LT : (2 * (many (0 + List.length vs * k) (blur W m) + blur W m) + e < resn m)%Q).
    { pose proof (blur_pos W m (W_pos W m G) Hr) as BP.
      assert (LE : (0 + List.length vs * k <= Z.to_nat (fst (size m) * snd (size m)) * k)%nat).
      { destruct (d_size _ _ G). apply Nat.mul_le_mono_r. apply range_length; auto; try lia. intros; now apply I. }
      pose proof (many_le _ _ _ LE BP) as ML. unfold many in ML at 2. rewrite inject_Z_plus in HB. change (inject_Z 1) with 1%Q in HB.
      rewrite Nat2Z.inj_mul, Z2Nat.id in ML by (destruct (d_size _ _ G); nia). lra. }
    pose proof (drift1_inj _ _ _ _ _ _ _ _ _ _ _ _ _ _ _ _ _ _ Hr Ri0 Rj0 A0 B0 P0 Q0 V0 LT) as K0.
    pose proof (drift1_inj _ _ _ _ _ _ _ _ _ _ _ _ _ _ _ _ _ _ Hr Ri1 Rj1 A1 B1 P1 Q1 V1 LT) as K1.
    destruct i, j. cbn [fst snd] in K0, K1. congruence.
Qed.
Print Assumptions C101_double.

(** A map of 2 x 2 cells of 0.2, and a loop that moves it by tenths. *)
Definition tiny64 : cmap := Eval vm_compute in after (setGeometry (E := binary64 BWrap) (tenths 4, tenths 4) (tenths 2) (tenths 1, 0%Q)) (new_map ["a"%string]).
Definition tenths_on (i : idx) (_ : cmap) : list op := [OpAt "a" i 7; OpMove (if fst i =? 0 then tenths 3 else tenths 5, 0%Q)].

Example C101_double_case : dgeo 8 tiny64 /\ reg_ok' tiny64 /\ basics_exist tiny64 /\
  (forall i m1, in_range (size tiny64) i -> Forall (near_moves 8 tiny64) (tenths_on i m1) /\ (List.length (tenths_on i m1) <= 2)%nat) /\
  (inject_Z (fst (size tiny64) * snd (size tiny64) * 2 + 1) * blur 8 tiny64 <= (1#4) * resn tiny64)%Q /\
  exists m', map_loop (E := binary64 BWrap) (calls_body (E := binary64 BWrap) tenths_on) tiny64 = Ret tt m' /\ start m' = (0, 0) /\
    at_ m' "a" (0, 1) = Ok 255 /\ at_ m' "a" (1, 1) = Ok 7.
Proof.
  split; [dgeo_vm|]. split; [apply reg_okb_ok; vm_compute; reflexivity|]. split; [apply basics_existb_ok; vm_compute; reflexivity|].
  split. { intros i m1 Hi. split; [|cbn; lia]. constructor; [split; [now left|exact Hi]|]. constructor; [|constructor].
    cbn [near_moves]. destruct (fst i =? 0); vm_compute; intuition discriminate. }
  split; [vm_compute; discriminate|]. eexists. split; [vm_compute; reflexivity|]. conj_vm.
Qed.
