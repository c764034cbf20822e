(** CostMap::extendToInclude with rounded arithmetic. *)
From Coq Require Import ZArith QArith Qround Qabs Qreduction Qfield String List Bool Lia Lqa.
From Verif Require Import Base Mat GridMapMath GridIter CostMap History BaseLemmas Spec GeoLemmas CoreProofs CoreProofs2 CoreFinal IterProofs MoveProofs AddDataProofs SubmapProofs ExtendProofs
  DoubleSpec DoubleGeo DoubleMap DoubleSub.
Import ListNotations.
Open Scope Z_scope.

Lemma half x : (x / (2#1) == (1#2) * x)%Q. Proof. field. Qed.

Section ExtendAxis.
Context {E : Env} (N : Near E).
Context (c L r A : Q) (HA : (0 < A)%Q) (HC1 : (- A <= c)%Q) (HC2 : (c <= A)%Q) (HL : (0 < L)%Q) (HL1 : (L - c <= (513#512) * A)%Q) (HL2 : (L + c <= (513#512) * A)%Q).

Notation d := (ulp * A)%Q.

Lemma rnd_pos x : (0 < x)%Q -> (0 < rnd x)%Q.
Proof.
  intros H. pose proof (N x) as K. rewrite (Qabs_pos x) in K by lra. apply Qabs_Qle_condition in K as [K1 K2]. unfold ulp in *. lra.
Qed.

Lemma extend_near co Lo c' L' b : (0 <= Lo)%Q -> (Lo - co <= A)%Q -> (Lo + co <= A)%Q ->
  extend_axis c L co Lo = (c', L', b) ->
  (0 < L')%Q /\ (L - 16 * d <= L')%Q /\
  (- (24 * d) <= c' + (1#2) * L' - mx (c + (1#2) * L) (co + (1#2) * Lo) /\ c' + (1#2) * L' - mx (c + (1#2) * L) (co + (1#2) * Lo) <= 24 * d)%Q /\
  (- (24 * d) <= c' - (1#2) * L' - mn (c - (1#2) * L) (co - (1#2) * Lo) /\ c' - (1#2) * L' - mn (c - (1#2) * L) (co - (1#2) * Lo) <= 24 * d)%Q /\
  (b = false -> c' = c /\ L' = L) /\
  ((co + (1#2) * Lo + 8 * d <= c + (1#2) * L)%Q -> (c - (1#2) * L + 8 * d <= co - (1#2) * Lo)%Q -> b = false).
Proof.
  intros HLo O1 O2. unfold extend_axis.
  assert (DP : (0 < d)%Q) by (unfold ulp; lra). assert (DA : (512 * d <= A)%Q) by (unfold ulp; lra).
  pose proof (nrA N A) as R. unfold fadd, fsub, fdiv.
  pose proof (half L) as e1. pose proof (half Lo) as e2.
  destruct (R (L / (2#1))%Q (51#100) ltac:(lra) ltac:(lra)) as [a1 a2]. set (h := rnd (L / (2#1))) in *. clearbody h.
  destruct (R (Lo / (2#1))%Q (51#100) ltac:(lra) ltac:(lra)) as [b1 b2]. set (ho := rnd (Lo / (2#1))) in *. clearbody ho.
  destruct (R (c + h)%Q (102#100) ltac:(lra) ltac:(lra)) as [c1 c2]. set (top := rnd (c + h)) in *. clearbody top.
  destruct (R (c - h)%Q (102#100) ltac:(lra) ltac:(lra)) as [d1 d2]. set (bot := rnd (c - h)) in *. clearbody bot.
  destruct (R (co + ho)%Q (102#100) ltac:(lra) ltac:(lra)) as [f1 f2]. set (topo := rnd (co + ho)) in *. clearbody topo.
  destruct (R (co - ho)%Q (102#100) ltac:(lra) ltac:(lra)) as [g1 g2]. set (boto := rnd (co - ho)) in *. clearbody boto.
  destruct (R (topo - top)%Q (21#10) ltac:(lra) ltac:(lra)) as [i1 i2].
  destruct (R (bot - boto)%Q (21#10) ltac:(lra) ltac:(lra)) as [j1 j2].
  pose proof (rnd_pos (topo - top)) as RP1. pose proof (rnd_pos (bot - boto)) as RP2.
  set (tt := rnd (topo - top)) in *. set (bb := rnd (bot - boto)) in *. clearbody tt bb.
  pose proof (half tt) as e3. pose proof (half bb) as e4.
  destruct (R (tt / (2#1))%Q (11#10) ltac:(lra) ltac:(lra)) as [k1 k2].
  destruct (R (bb / (2#1))%Q (11#10) ltac:(lra) ltac:(lra)) as [l1 l2].
  set (th := rnd (tt / (2#1))) in *. set (bh := rnd (bb / (2#1))) in *. clearbody th bh.
  unfold mx, mn.
  destruct (Qlt_bool top topo) eqn:K1; [apply Qlt_bool_iff in K1|apply Qlt_bool_false in K1];
  (destruct (Qlt_bool boto bot) eqn:K2; [apply Qlt_bool_iff in K2|apply Qlt_bool_false in K2]); injection 1 as Ec El <-.
  - specialize (RP1 ltac:(lra)). specialize (RP2 ltac:(lra)).
    destruct (R (c + th)%Q (22#10) ltac:(lra) ltac:(lra)) as [m1 m2]. set (cc := rnd (c + th)) in *. clearbody cc.
    destruct (R (cc - bh)%Q (34#10) ltac:(lra) ltac:(lra)) as [n1 n2]. rewrite Ec in n1, n2.
    pose proof (rnd_pos (L + tt) ltac:(lra)) as P1.
    destruct (R (L + tt)%Q (32#10) ltac:(lra) ltac:(lra)) as [o1 o2]. set (ll := rnd (L + tt)) in *. clearbody ll.
    pose proof (rnd_pos (ll + bb) ltac:(lra)) as P2. 
    destruct (R (ll + bb)%Q (54#10) ltac:(lra) ltac:(lra)) as [p1 p2]. rewrite El in p1, p2, P2.
    clear R Ec El. split; [lra|]. split; [lra|]. split; [|split; [|split; [discriminate|intros; exfalso; lra]]].
    + destruct (Qlt_le_dec _ _); split; lra.
    + destruct (Qlt_le_dec _ _); split; lra.
  - specialize (RP1 ltac:(lra)). clear RP2.
    destruct (R (c + th)%Q (22#10) ltac:(lra) ltac:(lra)) as [m1 m2]. rewrite Ec in m1, m2.
    pose proof (rnd_pos (L + tt) ltac:(lra)) as P1.
    destruct (R (L + tt)%Q (32#10) ltac:(lra) ltac:(lra)) as [o1 o2]. rewrite El in o1, o2, P1.
    clear R Ec El. split; [lra|]. split; [lra|]. split; [|split; [|split; [discriminate|intros; exfalso; lra]]].
    + destruct (Qlt_le_dec _ _); split; lra.
    + destruct (Qlt_le_dec _ _); split; lra.
  - specialize (RP2 ltac:(lra)). clear RP1.
    destruct (R (c - bh)%Q (22#10) ltac:(lra) ltac:(lra)) as [m1 m2]. rewrite Ec in m1, m2.
    pose proof (rnd_pos (L + bb) ltac:(lra)) as P1.
    destruct (R (L + bb)%Q (32#10) ltac:(lra) ltac:(lra)) as [o1 o2]. rewrite El in o1, o2, P1.
    clear R Ec El. split; [lra|]. split; [lra|]. split; [|split; [|split; [discriminate|intros; exfalso; lra]]].
    + destruct (Qlt_le_dec _ _); split; lra.
    + destruct (Qlt_le_dec _ _); split; lra.
  - subst c' L'. clear R. split; [lra|]. split; [lra|]. split; [|split; [|split; auto]].
    + destruct (Qlt_le_dec _ _); split; lra.
    + destruct (Qlt_le_dec _ _); split; lra.
Qed.

(** The remainder of fmod is smaller than the divisor. *)
Lemma Qfmod_bound x y : (0 < y)%Q -> (- y < Qfmod x y /\ Qfmod x y < y)%Q.
Proof.
  intros Hy. unfold Qfmod. set (T := Qtrunc (x / y)).
  assert (XY : (x / y * y == x)%Q) by (field; lra).
  assert (B : (inject_Z T - 1 < x / y /\ x / y < inject_Z T + 1)%Q).
  { assert (P : forall q, (0 <= q)%Q -> (inject_Z (Qtrunc q) <= q /\ q < inject_Z (Qtrunc q) + 1)%Q).
    { intros q Hq. rewrite Qtrunc_nonneg by auto. split; [apply Qfloor_le|].
      pose proof (Qlt_floor q) as K. rewrite inject_Z_plus in K. exact K. }
    destruct (Qlt_le_dec (x / y) 0) as [K|K].
    - destruct (P (- (x / y))%Q ltac:(lra)) as [P1 P2]. rewrite Qtrunc_opp, inject_Z_opp in P1, P2. fold T in P1, P2. split; lra.
    - destruct (P (x / y)%Q K) as [P1 P2]. fold T in P1, P2. split; lra. }
  destruct B as [B1 B2]. 
  apply (Qmult_lt_compat_r _ _ y Hy) in B1. apply (Qmult_lt_compat_r _ _ y Hy) in B2. rewrite XY in B1, B2.
  split; lra.
Qed.

Lemma align_near cn nn no : (0 < r)%Q -> (r <= A)%Q -> (512 * d <= r)%Q -> (- ((11#10) * A) <= cn)%Q -> (cn <= (11#10) * A)%Q -> 0 <= nn -> 0 <= no ->
  let p := align_axis cn c r nn no in
  (Qabs (p - cn) <= (5#2) * r + 16 * d)%Q /\
  exists k : Z, (Qabs (p + (1#2) * (inject_Z nn * r) - (c + (1#2) * (inject_Z no * r) + inject_Z k * r)) <= 16 * d)%Q.
Proof.
  intros Hr HR DA1 C1 C2 Nn No. unfold align_axis. cbv zeta.
  assert (DP : (0 < d)%Q) by (unfold ulp; lra). assert (DA : (512 * d <= A)%Q) by (unfold ulp; lra).
  pose proof (nrA N A) as R. unfold fadd, fsub, fdiv.
  destruct (R (cn - c)%Q (22#10) ltac:(lra) ltac:(lra)) as [a1 a2]. set (D := rnd (cn - c)) in *. clearbody D.
  destruct (Qfmod_bound D r Hr) as [s1 s2]. 
  assert (SE : exists T, (Qfmod D r == D - inject_Z T * r)%Q).
  { exists (Qtrunc (D / r)). unfold Qfmod. ring. }
  destruct SE as [T SE]. set (sh := Qfmod D r) in *. clearbody sh.
  pose proof (half r) as e1.
  destruct (R (r / (2#1))%Q (1#2) ltac:(lra) ltac:(lra)) as [b1 b2]. set (rh := rnd (r / (2#1))) in *. clearbody rh.
  set (c1 := if Qlt_bool (Qabs sh) rh then _ else _).
  assert (H1 : (- (2 * r + 11 * d) <= c1 - cn /\ c1 - cn <= 2 * r + 11 * d)%Q /\
    exists k, (- (11 * d) <= c1 - (c + inject_Z k * r) /\ c1 - (c + inject_Z k * r) <= 11 * d)%Q).
  { unfold c1. destruct (Qlt_bool _ _).
    - destruct (R (cn - sh)%Q (22#10) ltac:(lra) ltac:(lra)) as [f1 f2]. split; [split; lra|]. exists T. split; lra.
    - destruct (R (r - sh)%Q 2%Q ltac:(lra) ltac:(lra)) as [g1 g2]. set (rs := rnd (r - sh)) in *. clearbody rs.
      destruct (R (cn + rs)%Q (32#10) ltac:(lra) ltac:(lra)) as [f1 f2]. split; [split; lra|]. exists (T + 1).
      assert ((inject_Z (T + 1) * r == inject_Z T * r + r)%Q) as -> by (rewrite inject_Z_plus; ring).
      split; lra. }
  destruct H1 as [[H1 H2] [k [H3 H4]]]. clearbody c1. 
  destruct (parity_split nn no Nn No) as [[P [h Hh]]|[P [h Hh]]]; rewrite P; cbn [negb].
  - split; [apply Qabs_Qle_condition; split; lra|]. exists (k + h). replace nn with (no + (h + h)) by lia.
    assert (E1 : (c1 + (1#2) * (inject_Z (no + (h + h)) * r) - (c + (1#2) * (inject_Z no * r) + inject_Z (k + h) * r) == c1 - (c + inject_Z k * r))%Q).
    { rewrite !inject_Z_plus. field. }
    rewrite E1. apply Qabs_Qle_condition; split; lra.
  - assert (Ez : (inject_Z nn == inject_Z no + inject_Z h + inject_Z h + 1)%Q).
    { replace nn with (no + h + h + 1) by lia. rewrite !inject_Z_plus. reflexivity. }
    destruct (Qlt_bool D 0).
    + destruct (R (c1 + - - rh)%Q 4%Q ltac:(lra) ltac:(lra)) as [f1 f2]. set (p := rnd _) in *. clearbody p.
      split; [apply Qabs_Qle_condition; split; lra|]. exists (k + h + 1).
      assert (E1 : (p + (1#2) * (inject_Z nn * r) - (c + (1#2) * (inject_Z no * r) + inject_Z (k + h + 1) * r) == (p - c1 - (1#2) * r) + (c1 - (c + inject_Z k * r)))%Q).
      { rewrite Ez, !inject_Z_plus. change (inject_Z 1) with 1%Q. field. }
      rewrite E1. apply Qabs_Qle_condition; split; lra.
    + destruct (R (c1 + - rh)%Q 4%Q ltac:(lra) ltac:(lra)) as [f1 f2]. set (p := rnd _) in *. clearbody p.
      split; [apply Qabs_Qle_condition; split; lra|]. exists (k + h).
      assert (E1 : (p + (1#2) * (inject_Z nn * r) - (c + (1#2) * (inject_Z no * r) + inject_Z (k + h) * r) == (p - c1 + (1#2) * r) + (c1 - (c + inject_Z k * r)))%Q).
      { rewrite Ez, !inject_Z_plus. field. }
      rewrite E1. apply Qabs_Qle_condition; split; lra.
Qed.

(** The whole treatment of one axis. *)
Lemma axis_extended n co Lo c' L' b : (0 < r)%Q -> 1 <= n ->
  (inject_Z n * r - ulp * (inject_Z n * r) <= L)%Q -> (L <= inject_Z n * r + ulp * (inject_Z n * r))%Q ->
  (inject_Z n * r - c <= A)%Q -> (inject_Z n * r + c <= A)%Q -> (512 * d <= r)%Q ->
  (0 <= Lo)%Q -> (Lo - co <= A)%Q -> (Lo + co <= A)%Q -> extend_axis c L co Lo = (c', L', b) ->
  let n' := Qround_away (fdiv L' r) in let p' := align_axis c' c r n' n in let len' := fmul (inject_Z n') r in
  (0 < L')%Q /\ 0 < n' /\ (Qabs (len' - inject_Z n' * r) <= ulp * (inject_Z n' * r))%Q /\
  (Qabs p' + inject_Z n' * r <= 4 * A + 8 * r)%Q /\
  (exists k, - (40 * d) <= p' + (1#2) * len' - (c + (1#2) * L + inject_Z k * r) /\ p' + (1#2) * len' - (c + (1#2) * L + inject_Z k * r) <= 40 * d)%Q /\
  (Qabs (p' + (1#2) * len' - mx (c + (1#2) * L) (co + (1#2) * Lo)) <= 3 * r)%Q /\
  (Qabs (p' - (1#2) * len' - mn (c - (1#2) * L) (co - (1#2) * Lo)) <= 3 * r)%Q.
Proof.
  intros Hr Hn L1 L2 A1 A2 HS HLo O1 O2 HE n' p' len'.
  destruct (axis_basic n L c r A Hr Hn L1 L2 A1 A2) as (B1 & B2 & B3 & B4 & B5 & B6 & B7 & B8 & B9 & B10 & B11).
  destruct (extend_near co Lo c' L' b HLo O1 O2 HE) as (X1 & X2 & [X3 X4] & [X5 X6] & _).
  assert (DP : (0 < d)%Q) by (unfold ulp; lra). assert (DA : (512 * d <= A)%Q) by (unfold ulp; lra).
  assert (M1 : (- A <= mx (c + (1#2) * L) (co + (1#2) * Lo) /\ mx (c + (1#2) * L) (co + (1#2) * Lo) <= A)%Q).
  { unfold mx. destruct (Qlt_le_dec _ _); split; lra. }
  assert (M2 : (- A <= mn (c - (1#2) * L) (co - (1#2) * Lo) /\ mn (c - (1#2) * L) (co - (1#2) * Lo) <= A)%Q).
  { unfold mn. destruct (Qlt_le_dec _ _); split; lra. }
  set (U := mx (c + (1#2) * L) (co + (1#2) * Lo)) in *. set (V := mn (c - (1#2) * L) (co - (1#2) * Lo)) in *. clearbody U V.
  (* the number of cells *)
  assert (NR : (- ((1#2) * r + 4 * d) <= inject_Z n' * r - L' /\ inject_Z n' * r - L' <= (1#2) * r + 4 * d)%Q).
  { pose proof (Qround_away_near (fdiv L' r)) as Q. fold n' in Q. apply Qabs_Qle_condition in Q as [Q1 Q2].
    assert (XR : (L' / r * r == L')%Q) by (field; lra). assert (XP : (0 <= L' / r)%Q) by (apply Qle_shift_div_l; lra).
    pose proof (N (L' / r)%Q) as NE. rewrite (Qabs_pos (L' / r)) in NE by auto. apply Qabs_Qle_condition in NE as [N1 N2].
    unfold fdiv in Q1, Q2. set (z := rnd (L' / r)) in *. clearbody z.
    assert (MU : forall a b, (a <= b -> a * r <= b * r)%Q) by (intros; apply Qmult_le_compat_r; lra).
    apply MU in Q1. apply MU in Q2. apply MU in N1. apply MU in N2.
    assert (E1 : ((z - inject_Z n') * r == z * r - inject_Z n' * r)%Q) by ring. rewrite E1 in Q1, Q2.
    assert (E3 : ((z - L' / r) * r == z * r - L')%Q) by (rewrite <- XR at 2; ring). rewrite E3 in N1, N2.
    assert (E4 : (- (ulp * (L' / r)) * r == - (ulp * L'))%Q) by (rewrite <- XR at 2; ring). rewrite E4 in N1.
    assert (E5 : (ulp * (L' / r) * r == ulp * L')%Q) by (rewrite <- XR at 2; ring). rewrite E5 in N2.
    assert (UL : (ulp * L' <= 3 * d)%Q).
    { setoid_replace (3 * d)%Q with (ulp * (3 * A))%Q by ring. apply Qmult_le_l; [reflexivity|]. lra. }
    set (zr := (z * r)%Q) in *. set (nr := (inject_Z n' * r)%Q) in *. clearbody zr nr. split; lra. }
  destruct NR as [NR1 NR2].
  assert (NP : 0 < n').
  { assert (K : (0 < inject_Z n' * r)%Q) by lra.
    assert (0 < inject_Z n')%Q as K'. { destruct (Qlt_le_dec 0 (inject_Z n')) as [|K']; auto. exfalso.
      pose proof (Qmult_le_compat_r _ _ r K' ltac:(lra)) as K2. lra. }
    change 0%Q with (inject_Z 0) in K'. now rewrite <- Zlt_Qlt in K'. }
  assert (NN : (0 <= inject_Z n' * r)%Q) by lra.
  destruct (align_near c' n' n Hr ltac:(lra) HS ltac:(lra) ltac:(lra) ltac:(lia) ltac:(lia)) as [P1 [k P2]]. fold p' in P1, P2.
  apply Qabs_Qle_condition in P1 as [P1 P1']. apply Qabs_Qle_condition in P2 as [P2 P2'].
  assert (LE : (Qabs (len' - inject_Z n' * r) <= ulp * (inject_Z n' * r))%Q).
  { unfold len', fmul. pose proof (N (inject_Z n' * r)%Q) as K. rewrite (Qabs_pos (inject_Z n' * r)) in K by auto. exact K. }
  split; [exact X1|]. split; [exact NP|]. split; [exact LE|].
  assert (UN : (ulp * (inject_Z n' * r) <= 4 * d)%Q).
  { setoid_replace (4 * d)%Q with (ulp * (4 * A))%Q by ring. apply Qmult_le_l; [reflexivity|]. lra. }
  apply Qabs_Qle_condition in LE as [LE1 LE2]. clearbody p' len'. set (nr := (inject_Z n' * r)%Q) in *. clearbody nr.
  set (no := (inject_Z n * r)%Q) in *. clearbody no. set (kr := (inject_Z k * r)%Q) in *.
  split. { pose proof (Qabs_case p' (fun x => (x + nr <= 4 * A + 8 * r)%Q)) as Q. apply Q; intros; lra. }
  split. { exists k. fold kr. clearbody kr. split; lra. }
  split; apply Qabs_Qle_condition; split; lra.
Qed.

End ExtendAxis.

Section ExtendMap.
Context {E : Env} (N : Near E) (W : Z) (HW : W <= 2 ^ 41).

Lemma axis_map c L n r co Lo c' L' b : (0 < r)%Q -> 0 < n ->
  (Qabs (L - inject_Z n * r) <= ulp * (inject_Z n * r))%Q -> (Qabs c + inject_Z n * r <= inject_Z W * r)%Q ->
  (4096 * (ulp * (inject_Z W * r)) <= r)%Q ->
  (0 <= Lo)%Q -> (Qabs co + Lo <= inject_Z W * r)%Q -> extend_axis c L co Lo = (c', L', b) ->
  let n' := Qround_away (fdiv L' r) in let p' := align_axis c' c r n' n in let len' := fmul (inject_Z n') r in
  (b = false -> c' = c /\ L' = L) /\
  ((co + (1#2) * Lo + 8 * (ulp * (inject_Z W * r)) <= c + (1#2) * L)%Q -> (c - (1#2) * L + 8 * (ulp * (inject_Z W * r)) <= co - (1#2) * Lo)%Q -> b = false) /\
  (Qabs (c' + (1#2) * L' - mx (c + (1#2) * L) (co + (1#2) * Lo)) <= r)%Q /\
  (Qabs (c' - (1#2) * L' - mn (c - (1#2) * L) (co - (1#2) * Lo)) <= r)%Q /\
  (0 < L')%Q /\ 0 < n' /\ (Qabs (len' - inject_Z n' * r) <= ulp * (inject_Z n' * r))%Q /\
  (Qabs p' + inject_Z n' * r <= inject_Z (4 * W + 8) * r)%Q /\
  (exists k, - (40 * (ulp * (inject_Z W * r))) <= p' + (1#2) * len' - (c + (1#2) * L + inject_Z k * r) /\
    p' + (1#2) * len' - (c + (1#2) * L + inject_Z k * r) <= 40 * (ulp * (inject_Z W * r)))%Q /\
  (Qabs (p' + (1#2) * len' - mx (c + (1#2) * L) (co + (1#2) * Lo)) <= 3 * r)%Q /\
  (Qabs (p' - (1#2) * len' - mn (c - (1#2) * L) (co - (1#2) * Lo)) <= 3 * r)%Q.
Proof.
  intros Hr Hn HL HF HS HLo HO HE n' p' len'.
  destruct (axis_hyps _ _ _ _ W Hr Hn HL HF) as (a1 & a2 & a3 & a4 & a5).
  destruct (axis_basic n L c r _ Hr a1 a2 a3 a4 a5) as (B1 & B2 & B3 & B4 & B5 & B6 & B7 & B8 & B9 & B10 & B11).
  pose proof (Qle_Qabs co) as O1. pose proof (Qle_Qabs (- co)) as O2. rewrite Qabs_opp in O2.
  assert (EW : (inject_Z (4 * W + 8) * r == 4 * (inject_Z W * r) + 8 * r)%Q).
  { rewrite inject_Z_plus, inject_Z_mult. change (inject_Z 4) with 4%Q. change (inject_Z 8) with 8%Q. ring. }
  assert (UL : (ulp * (inject_Z n * r) <= ulp * (inject_Z W * r))%Q) by (apply Qmult_le_l; [reflexivity|exact B2]).
  set (A := (inject_Z W * r)%Q) in *. set (nn := (inject_Z n * r)%Q) in *.
  assert (DP : (0 < ulp * A)%Q) by (unfold ulp; lra).
  assert (HA : (0 < A)%Q) by lra. assert (HL0 : (0 < L)%Q) by (unfold ulp in *; lra).
  destruct (extend_near N c L A HA HL0 ltac:(lra) ltac:(lra) co Lo c' L' b HLo ltac:(lra) ltac:(lra) HE)
    as (X1 & X2 & [X3 X4] & [X5 X6] & X7 & X8).
  split; [exact X7|]. split; [exact X8|].
  split; [apply Qabs_Qle_condition; split; lra|]. split; [apply Qabs_Qle_condition; split; lra|].
  rewrite EW.
  apply (axis_extended N c L r A HA ltac:(lra) HL0 ltac:(lra) ltac:(lra) n co Lo c' L' b); auto; lra.
Qed.


Lemma extend_double m other cx Lx bx cy Ly by_ : dgeo W m -> reg_ok' m -> basics_exist m -> reaches W m other ->
  extend_axis (fst (pos m)) (fst (len m)) (fst (pos other)) (fst (len other)) = (cx, Lx, bx) ->
  extend_axis (snd (pos m)) (snd (len m)) (snd (pos other)) (snd (len other)) = (cy, Ly, by_) ->
  bx || by_ = true ->
  exists m' z, extendToInclude other m = Ret true m' /\ dgeo (4 * W + 8) m' /\ reg_ok' m' /\ resn m' = resn m /\
    layers m' = layers m /\ basic m' = basic m /\ frame m' = frame m /\ stamp m' = stamp m /\
    close (40 * (ulp * (inject_Z W * resn m))) (upper m') (fst (upper m) + inject_Z (fst z) * resn m, snd (upper m) + inject_Z (snd z) * resn m)%Q /\
    close (3 * resn m) (upper m') (mx (fst (upper m)) (fst (upper other)), mx (snd (upper m)) (snd (upper other))) /\
    close (3 * resn m) (lower m') (mn (fst (lower m)) (fst (lower other)), mn (snd (lower m)) (snd (lower other))) /\
    (forall l i, has_layer m l -> in_range (size m') i ->
       forall v, value_at m' l i v <->
         (exists j, in_range (size m) j /\ same_place m m' z j i /\ value_at m l j v) \/
         ((forall j, in_range (size m) j -> ~ same_place m m' z j i) /\ v = unknown)).
Proof.
  intros G R B (O1 & O2 & O3 & O4) E0 E1 Hb. unfold extendToInclude. rewrite E0, E1, Hb. cbn [negb].
  pose proof (d_res _ _ G) as Hr. destruct (d_size _ _ G) as [Z0 Z1].
  assert (HS : (4096 * (ulp * (inject_Z W * resn m)) <= resn m)%Q).
  { pose proof (small_A (8 * W) m ltac:(lia) Hr) as K. rewrite inject_Z_mult in K. change (inject_Z 8) with 8%Q in K. lra. }
  destruct (axis_map _ _ _ _ _ _ _ _ _ Hr Z0 (d_len0 _ _ G) (d_far0 _ _ G) HS O1 O3 E0) as (_ & _ & _ & _ & P0 & N0 & S0 & F0 & [k0 K0] & U0 & V0).
  destruct (axis_map _ _ _ _ _ _ _ _ _ Hr Z1 (d_len1 _ _ G) (d_far1 _ _ G) HS O2 O4 E1) as (_ & _ & _ & _ & P1 & N1 & S1 & F1 & [k1 K1] & U1 & V1).
  set (n0 := Qround_away (fdiv Lx (resn m))) in *. set (n1 := Qround_away (fdiv Ly (resn m))) in *.
  destruct (setGeometry_counts (Lx, Ly) (resn m) (cx, cy) m (n0, n1) (proj1 R) N0 N1 Hr P0 P1 eq_refl eq_refl) as
    (m1 & H1 & R1 & T0 & T1 & T2 & T3 & T4 & T5 & T6 & T7 & T8 & T9 & T10 & T11).
  cbn [fst snd] in T1.
  unfold bind at 1. rewrite H1. unfold bind at 1. cbn [modify].
  set (m2 := set_pos m1 _). unfold bind at 1.
  assert (Ez : size m2 = (n0, n1)) by exact T0. assert (Er : resn m2 = resn m) by exact T2.
  assert (Ep : pos m2 = (align_axis cx (fst (pos m)) (resn m) n0 (fst (size m)), align_axis cy (snd (pos m)) (resn m) n1 (snd (size m)))).
  { cbn [m2 pos set_pos]. rewrite T0, T2, T3. reflexivity. }
  assert (El : len m2 = (fmul (inject_Z n0) (resn m), fmul (inject_Z n1) (resn m))) by exact T1.
  assert (G2 : dgeo (4 * W + 8) m2).
  { constructor; rewrite ?Ez, ?Er, ?Ep, ?El; cbn [fst snd]; auto. change (start m2) with (start m1). rewrite T4. unfold in_range; cbn; lia. }
  assert (R2 : reg_ok' m2).
  { split; [|rewrite Ez; cbn [fst snd]; lia]. destruct R1 as [A1 A2 A3 A4]. constructor; auto. }
  assert (Hh : forall l, has_layer m1 l <-> has_layer m l).
  { intros l. rewrite <- !exists_has, T9. tauto. }
  assert (B2 : basics_exist m2).
  { intros l Hl. change (has_layer m1 l). apply Hh. apply B. change (In l (basic m1)) in Hl. now rewrite T6 in Hl. }
  assert (HW2 : 4 * W + 8 <= 2 ^ 44) by lia.
  assert (HWm : W <= 2 ^ 44) by lia.
  set (z := (k0, k1)).
  (* where a new cell is in the old map *)
  assert (PL : forall i, in_range (size m2) i -> exists p, getPosition m2 i = Some p /\
    (isInside m p = true <-> in_range (size m) (fst (world_index m2 i) - k0, snd (world_index m2 i) - k1)) /\
    (in_range (size m) (fst (world_index m2 i) - k0, snd (world_index m2 i) - k1) ->
      exists j, getIndex m p = (true, j) /\ in_range (size m) j /\ world_index m j = (fst (world_index m2 i) - k0, snd (world_index m2 i) - k1))).
  { intros i Hi. destruct (position_close N (4 * W + 8) HW2 m2 i G2 Hi) as (p & Hp & C). exists p. split; [exact Hp|].
    apply (at_cell_lookup N W HWm ((1#4) * resn m) m p); [exact G|lra|].
    unfold at_cell. unfold centre in C. rewrite Er, Ep, El in C. cbn [fst snd] in C.
    set (w := world_index m2 i) in *. destruct C as [C0 C1]. cbn [fst snd] in C0, C1.
    apply Qabs_Qle_condition in C0 as [C0 C0']. apply Qabs_Qle_condition in C1 as [C1 C1'].
    assert (EW : (ulp * (inject_Z (4 * W + 8) * resn m) == 4 * (ulp * (inject_Z W * resn m)) + 8 * (ulp * resn m))%Q).
    { rewrite inject_Z_plus, inject_Z_mult. change (inject_Z 4) with 4%Q. change (inject_Z 8) with 8%Q. ring. }
    rewrite blur_eq, Er, EW in C0, C0', C1, C1'. destruct K0 as [K0 K0'], K1 as [K1 K1'].
    assert (UR : (8 * (ulp * resn m) <= resn m * (1#8192))%Q) by (unfold ulp; lra).
    set (D := (ulp * (inject_Z W * resn m))%Q) in *. clearbody D.
    assert (EH : forall x, (x / 2 == (1#2) * x)%Q) by (intros; field).
    unfold close, centre1 in *. cbn [fst snd]. 
    assert (EI : forall a b, (inject_Z (a - b) == inject_Z a - inject_Z b)%Q) by (intros; rewrite inject_Z_sub; reflexivity).
    pose proof (EH (fst (len m))) as h0. pose proof (EH (snd (len m))) as h1.
    pose proof (EH (fmul (inject_Z n0) (resn m))) as h2. pose proof (EH (fmul (inject_Z n1) (resn m))) as h3. clear EH.
    split; apply Qabs_Qle_condition; rewrite EI.
    - set (L0 := fmul (inject_Z n0) (resn m)) in *. set (q0 := align_axis cx _ _ _ _) in *. clearbody L0 q0.
      assert (EM : ((inject_Z (fst w) - inject_Z k0 + (1#2)) * resn m == (inject_Z (fst w) + (1#2)) * resn m - inject_Z k0 * resn m)%Q) by ring.
      rewrite EM. set (kr := (inject_Z k0 * resn m)%Q) in *. set (wr := ((inject_Z (fst w) + (1#2)) * resn m)%Q) in *. clearbody kr wr.
      split; lra.
    - set (L0 := fmul (inject_Z n1) (resn m)) in *. set (q0 := align_axis cy _ _ _ _) in *. clearbody L0 q0.
      assert (EM : ((inject_Z (snd w) - inject_Z k1 + (1#2)) * resn m == (inject_Z (snd w) + (1#2)) * resn m - inject_Z k1 * resn m)%Q) by ring.
      rewrite EM. set (kr := (inject_Z k1 * resn m)%Q) in *. set (wr := ((inject_Z (snd w) + (1#2)) * resn m)%Q) in *. clearbody kr wr.
      split; lra. }
  destruct (copy_cells m2 m (d_start _ _ G2)) as (m' & Hm & C & A); try exact R2; try exact B2; try apply R; try exact T5.
  { intros i Hi. destruct (PL i Hi) as (p & Hp & I & J). exists p. split; [exact Hp|].
    intros K. destruct (J (proj1 I K)) as (j & -> & Rj & _). exact Rj. }
  { intros l i Hl Hi. apply CoreProofs2.at_value. apply (T11 l i); [|now rewrite Ez in Hi].
    apply exists_has. apply akeys_has; [apply R|]. change (In l (layers m1)) in Hl. now rewrite T5 in Hl. }
  rewrite Hm. exists m', z. split; [reflexivity|].
  assert (MM : same_meta m2 m') by apply C.
  destruct MM as (Q1 & Q2 & Q3 & Q4 & Q5 & Q6 & Q7 & Q8).
  assert (G' : dgeo (4 * W + 8) m').
  { destruct G2 as [A1 A2 A3 A4 A5 A6 A7]. constructor; rewrite <- ?Q4, <- ?Q5, <- ?Q6, <- ?Q7, <- ?Q8; auto. }
  split; [exact G'|]. split; [apply C|]. split; [rewrite <- Q5; exact Er|].
  split; [rewrite <- T5; apply C|]. split; [now rewrite <- Q3|]. split; [now rewrite <- Q1|]. split; [now rewrite <- Q2|].
  assert (EH : forall x, (x / 2 == (1#2) * x)%Q) by (intros; field).
  assert (MX : forall a b a' b', (a == a' -> b == b' -> mx a b == mx a' b')%Q).
  { intros a b a' b' K1' K2'. unfold mx. destruct (Qlt_le_dec a b), (Qlt_le_dec a' b'); lra. }
  assert (MN : forall a b a' b', (a == a' -> b == b' -> mn a b == mn a' b')%Q).
  { intros a b a' b' K1' K2'. unfold mn. destruct (Qlt_le_dec b a), (Qlt_le_dec b' a'); lra. }
  split; [|split; [|split]].
  - unfold close, upper. cbn [fst snd z]. rewrite <- Q4, <- Q6, Ep, El. cbn [fst snd]. rewrite !EH. split; apply Qabs_Qle_condition; assumption.
  - unfold close. cbn [fst snd].
    rewrite (MX _ _ _ _ (Qplus_comp _ _ (Qeq_refl (fst (pos m))) _ _ (EH (fst (len m)))) (Qplus_comp _ _ (Qeq_refl (fst (pos other))) _ _ (EH (fst (len other))))).
    rewrite (MX _ _ _ _ (Qplus_comp _ _ (Qeq_refl (snd (pos m))) _ _ (EH (snd (len m)))) (Qplus_comp _ _ (Qeq_refl (snd (pos other))) _ _ (EH (snd (len other))))).
    unfold upper. cbn [fst snd]. rewrite <- Q4, <- Q6, Ep, El. cbn [fst snd]. rewrite (EH (fmul (inject_Z n0) _)), (EH (fmul (inject_Z n1) _)). split; assumption.
  - unfold close. cbn [fst snd].
    rewrite (MN _ _ _ _ (Qminus_comp _ _ (Qeq_refl (fst (pos m))) _ _ (EH (fst (len m)))) (Qminus_comp _ _ (Qeq_refl (fst (pos other))) _ _ (EH (fst (len other))))).
    rewrite (MN _ _ _ _ (Qminus_comp _ _ (Qeq_refl (snd (pos m))) _ _ (EH (snd (len m)))) (Qminus_comp _ _ (Qeq_refl (snd (pos other))) _ _ (EH (snd (len other))))).
    unfold lower. cbn [fst snd]. rewrite <- Q4, <- Q6, Ep, El. cbn [fst snd]. rewrite (EH (fmul (inject_Z n0) _)), (EH (fmul (inject_Z n1) _)). split; assumption.
  - intros l i Hl Hi v. rewrite <- Q7 in Hi. rewrite <- CoreProofs2.at_value, A by exact Hi.
    assert (EWI : world_index m' i = world_index m2 i). { unfold world_index. now rewrite <- Q7, <- Q8. }
    destruct (PL i Hi) as (p & Hp & I & J). unfold copied. rewrite Hp.
    assert (Il : In l (layers m)) by (apply akeys_has; [apply R|now apply exists_has]).
    assert (smem l (layers m) = true) as -> by now apply smem_In.
    assert (SP : forall j, same_place m m' z j i <-> world_index m j = (fst (world_index m2 i) - k0, snd (world_index m2 i) - k1)).
    { intros j. unfold same_place. rewrite EWI. cbn [z fst snd]. destruct (world_index m2 i) as [w0 w1], (world_index m j) as [u0 u1]. cbn [fst snd].
      split; intros K; injection K as ? ?; f_equal; lia. }
    destruct (isInside m p) eqn:Ins; cbn [andb].
    + destruct (J (proj1 I eq_refl)) as (j & Hj & Rj & Wj). rewrite Hj. cbn [snd]. rewrite CoreProofs2.at_value. split.
      * intros V. left. exists j. split; [exact Rj|]. split; [now apply SP|exact V].
      * intros [(j' & Rj' & S' & V)|[K _]].
        -- assert (j' = j) as ->; [|exact V]. apply (world_index_inj' W m); auto. apply SP in S'. now rewrite S', Wj.
        -- exfalso. apply (K j Rj). now apply SP.
    + assert (at_ m2 l i = Ok unknown) as ->.
      { apply CoreProofs2.at_value. apply (T11 l i); [exact Hl|now rewrite Ez in Hi]. }
      split.
      * intros K. right. split; [|now injection K as <-]. intros j Rj S. apply SP in S.
        assert (in_range (size m) (world_index m j)) as Rw by (apply (world_range W); exact G). rewrite S in Rw. apply I in Rw. discriminate.
      * intros [(j & Rj & S & _)|[_ ->]]; [exfalso|reflexivity]. apply SP in S.
        assert (in_range (size m) (world_index m j)) as Rw by (apply (world_range W); exact G). rewrite S in Rw. apply I in Rw. discriminate.
Qed.

End ExtendMap.
