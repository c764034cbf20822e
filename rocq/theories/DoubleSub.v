(** getSubmap with rounded arithmetic, for requests well inside the map. *)
From Coq Require Import ZArith QArith Qround Qabs String List Bool Lia Lqa.
From Verif Require Import Base Mat GridMapMath CostMap Spec History BaseLemmas GeoLemmas CoreProofs CoreProofs2 CoreFinal IterProofs MoveProofs SubmapProofs
  DoubleSpec DoubleGeo DoubleMap.
Import ListNotations.
Open Scope Z_scope.

Section SubAxis.
Context {E : Env} (N : Near E).
Context (n : Z) (L c r A : Q).
Context (Hr : (0 < r)%Q) (Hn : 1 <= n)
  (HL1 : (inject_Z n * r - ulp * (inject_Z n * r) <= L)%Q) (HL2 : (L <= inject_Z n * r + ulp * (inject_Z n * r))%Q)
  (HA1 : (inject_Z n * r - c <= A)%Q) (HA2 : (inject_Z n * r + c <= A)%Q)
  (HS : (512 * (ulp * A) <= r)%Q).

Notation d := (ulp * A)%Q.

(** Clamping does nothing well inside. *)
Lemma bound_inside p : (c - L / 2 + 16 * d <= p)%Q -> (p <= c + L / 2 - 16 * d)%Q ->
  (- (5 * d) <= bound_position1 p L c - p /\ bound_position1 p L c - p <= 5 * d)%Q.
Proof.
  intros P1 P2. destruct (axis_basic n L c r A Hr Hn HL1 HL2 HA1 HA2) as (B1 & B2 & B3 & B4 & B5 & B6 & B7 & B8 & B9 & B10 & B11).
  assert (EL : (L / 2 == (1#2) * L)%Q) by field. rewrite EL in *. clear EL.
  unfold bound_position1, fsub, fadd, fmul.
  assert (DP : (0 < d)%Q) by (unfold ulp; lra).
  set (nn := (inject_Z n * r)%Q) in *.
  pose proof (nrA N A) as R. 
  destruct (R ((1#2) * L)%Q (51#100) ltac:(lra) ltac:(lra)) as [a1 a2]. set (o := rnd ((1#2) * L)) in *. clearbody o.
  destruct (R (p - c)%Q (51#100) ltac:(lra) ltac:(lra)) as [b1 b2]. set (y := rnd (p - c)) in *. clearbody y.
  destruct (R (y + o)%Q (103#100) ltac:(lra) ltac:(lra)) as [c1 c2]. set (sh := rnd (y + o)) in *. clearbody sh.
  assert (Qle_bool sh 0 = false) as ->.
  { apply not_true_iff_false. rewrite Qle_bool_iff. lra. }
  assert (Qle_bool L sh = false) as ->.
  { apply not_true_iff_false. rewrite Qle_bool_iff. lra. }
  destruct (R (sh + c)%Q (16#10) ltac:(lra) ltac:(lra)) as [e1 e2]. set (t := rnd (sh + c)) in *. clearbody t.
  destruct (R (t - o)%Q (11#10) ltac:(lra) ltac:(lra)) as [f1 f2]. split; lra.
Qed.

(** The index found for a corner of the request. *)
Lemma corner_cell x p : (- (2 * d) <= x - p)%Q -> (x - p <= 2 * d)%Q ->
  (c - L / 2 + 32 * d <= p)%Q -> (p <= c + L / 2 - 32 * d)%Q ->
  let b := bound_position1 x L c in let k := raw_index1 b L c r in
  within1 b L c = true /\ 0 <= k < n /\
  (inject_Z k * r - 14 * d <= c + L / 2 - p)%Q /\ (c + L / 2 - p <= (inject_Z k + 1) * r + 14 * d)%Q.
Proof.
  intros X1 X2 P1 P2 b k. destruct (axis_basic n L c r A Hr Hn HL1 HL2 HA1 HA2) as (B1 & B2 & B3 & B4 & B5 & B6 & B7 & B8 & B9 & B10 & B11).
  assert (DP : (0 < d)%Q) by (unfold ulp; lra).
  destruct (bound_inside x ltac:(lra) ltac:(lra)) as [b1 b2]. fold b in b1, b2.
  assert (W : within1 b L c = true) by (apply (within_intro N n L c r A); auto; lra).
  destruct (raw_cell N n L c r A Hr Hn HL1 HL2 HA1 HA2 HS b W) as (K0 & K1 & K2 & K3). fold k in K0, K1, K2, K3.
  split; auto. split; [split; [lia|apply K3; lra]|]. split; lra.
Qed.

(** Size and centre of the submap. *)
Lemma sub_centre t s : 0 <= t -> 0 < s -> t + s <= n ->
  let sl := fmul (inject_Z s) r in
  let sp := fsub (fadd (position1 t L c r) (fmul (1#2) r)) (fmul (1#2) sl) in
  (Qabs (sl - inject_Z s * r) <= ulp * (inject_Z s * r))%Q /\
  (Qabs (sp + sl / 2 - (c + L / 2 - inject_Z t * r)) <= 12 * d)%Q /\
  (Qabs sp + inject_Z s * r <= A + r)%Q.
Proof.
  intros Ht Hs Hts sl sp.
  destruct (axis_basic n L c r A Hr Hn HL1 HL2 HA1 HA2) as (B1 & B2 & B3 & B4 & B5 & B6 & B7 & B8 & B9 & B10 & B11).
  assert (SR : (0 <= inject_Z s * r)%Q) by (apply Qmult_le_0_compat; [change 0%Q with (inject_Z 0); rewrite <- Zle_Qle; lia|lra]).
  assert (TR : (0 <= inject_Z t * r)%Q) by (apply Qmult_le_0_compat; [change 0%Q with (inject_Z 0); rewrite <- Zle_Qle; lia|lra]).
  assert (TS : (inject_Z t * r + inject_Z s * r <= inject_Z n * r)%Q).
  { setoid_replace (inject_Z t * r + inject_Z s * r)%Q with (inject_Z (t + s) * r)%Q by (rewrite inject_Z_plus; ring).
    apply Qmult_le_compat_r; [rewrite <- Zle_Qle; lia|lra]. }
  assert (SL : (Qabs (sl - inject_Z s * r) <= ulp * (inject_Z s * r))%Q).
  { unfold sl, fmul. pose proof (N (inject_Z s * r)%Q) as K. now rewrite (Qabs_pos (inject_Z s * r)) in K by auto. }
  split; auto. apply Qabs_Qle_condition in SL as [S1 S2].
  assert (SU : (ulp * (inject_Z s * r) <= d)%Q).
  { apply Qmult_le_l; [reflexivity|]. set (nn := (inject_Z n * r)%Q) in *. clearbody nn. lra. }
  destruct (position_err N n L c r A Hr Hn HL1 HL2 HA1 HA2 HS t ltac:(lia)) as [p1 p2]. unfold centre1 in p1, p2.
  assert (EL : (L / 2 == (1#2) * L)%Q) by field. assert (ES : (sl / 2 == (1#2) * sl)%Q) by field. rewrite EL in *. rewrite ES.
  assert (ET : ((inject_Z t + (1#2)) * r == inject_Z t * r + (1#2) * r)%Q) by ring. rewrite ET in p1, p2. clear EL ES ET.
  unfold sp, fsub, fadd. set (u := (ulp * (inject_Z s * r))%Q) in *.
  set (sr := (inject_Z s * r)%Q) in *. set (tr := (inject_Z t * r)%Q) in *. set (nn := (inject_Z n * r)%Q) in *.
  set (q := position1 t L c r) in *. clearbody u sr tr nn q sl. clear sp. unfold fmul.
  pose proof (nrA N A) as R.
  destruct (R ((1#2) * r)%Q (1#2) ltac:(lra) ltac:(lra)) as [a1 a2]. set (h := rnd ((1#2) * r)) in *. clearbody h.
  destruct (R ((1#2) * sl)%Q (51#100) ltac:(lra) ltac:(lra)) as [b1 b2]. set (g := rnd ((1#2) * sl)) in *. clearbody g.
  destruct (R (q + h)%Q (11#10) ltac:(lra) ltac:(lra)) as [c1 c2]. set (y := rnd (q + h)) in *. clearbody y.
  destruct (R (y - g)%Q (17#10) ltac:(lra) ltac:(lra)) as [e1 e2]. set (sp := rnd (y - g)) in *. clearbody sp.
  split.
  - apply Qabs_Qle_condition. split; lra.
  - assert (Qabs sp <= A + r - sr)%Q; [|lra]. apply Qabs_Qle_condition. split; lra.
Qed.

Lemma count_cells s x : 0 < s <= n -> (Qabs (x - inject_Z s * r) <= ulp * (inject_Z s * r))%Q ->
  (0 < x)%Q /\ Qround_away (fdiv x r) = s.
Proof.
  intros Hs HX. apply Qabs_Qle_condition in HX as [X1 X2].
  destruct (axis_basic n L c r A Hr Hn HL1 HL2 HA1 HA2) as (B1 & B2 & B3 & B4 & B5 & _).
  assert (S1 : (1 <= inject_Z s)%Q) by (change 1%Q with (inject_Z 1); rewrite <- Zle_Qle; lia).
  assert (S2 : (inject_Z s <= inject_Z n)%Q) by (rewrite <- Zle_Qle; lia).
  assert (AR : (A / r * r == A)%Q) by (field; lra).
  assert (NA : (inject_Z n <= A / r)%Q) by (apply Qle_shift_div_l; auto).
  assert (UA : (512 * (ulp * (A / r)) <= 1)%Q).
  { apply Qmult_le_r with (z := r); auto. setoid_replace (512 * (ulp * (A / r)) * r)%Q with (512 * (ulp * (A / r * r)))%Q by ring.
    rewrite AR, Qmult_1_l. exact HS. }
  assert (SR : (r <= inject_Z s * r)%Q). { setoid_replace r with (1 * r)%Q at 1 by ring. apply Qmult_le_compat_r; lra. }
  assert (XP : (0 < x)%Q). { unfold ulp in X1. set (sr := (inject_Z s * r)%Q) in *. clearbody sr. lra. }
  split; auto.
  assert (YL : (inject_Z s - ulp * inject_Z s <= x / r)%Q). { apply Qle_shift_div_l; auto. lra. }
  assert (YU : (x / r <= inject_Z s + ulp * inject_Z s)%Q). { apply Qle_shift_div_r; auto. lra. }
  unfold fdiv. set (y := (x / r)%Q) in *.
  assert (Y0 : (0 <= y)%Q) by (unfold ulp in YL; lra).
  pose proof (N y) as K. rewrite (Qabs_pos y) in K by auto. apply Qabs_Qle_condition in K as [K1 K2].
  set (z := rnd y) in *. set (a := (A / r)%Q) in *. clearbody z y a. unfold ulp in *.
  apply Qround_away_unique; set (S := inject_Z s) in *; clearbody S; lra.
Qed.

(** One axis of a request. *)
Lemma sub_axis q l : (512 * (ulp * (A + r)) <= r)%Q ->
  (80 * d <= l)%Q -> (c - L / 2 + 32 * d <= q - l / 2)%Q -> (q + l / 2 <= c + L / 2 - 32 * d)%Q ->
  let bt := bound_position1 (fadd q (fmul (1#2) l)) L c in
  let bb := bound_position1 (fsub q (fmul (1#2) l)) L c in
  let kt := raw_index1 bt L c r in let kb := raw_index1 bb L c r in let s := kb - kt + 1 in
  let sl := fmul (inject_Z s) r in
  let sp := fsub (fadd (position1 kt L c r) (fmul (1#2) r)) (fmul (1#2) sl) in
  (within1 bt L c = true /\ within1 bb L c = true /\ 0 <= kt /\ kt <= kb /\ kb < n) /\
  ((inject_Z kt * r - 14 * d <= c + L / 2 - (q + l / 2))%Q /\ (c + L / 2 - (q + l / 2) <= (inject_Z kt + 1) * r + 14 * d)%Q /\
   (inject_Z kb * r - 14 * d <= c + L / 2 - (q - l / 2))%Q /\ (c + L / 2 - (q - l / 2) <= (inject_Z kb + 1) * r + 14 * d)%Q) /\
  (Qabs (sl - inject_Z s * r) <= ulp * (inject_Z s * r))%Q /\
  (Qabs (sp + sl / 2 - (c + L / 2 - inject_Z kt * r)) <= 12 * d)%Q /\
  (Qabs sp + inject_Z s * r <= A + r)%Q /\ within1 q sl sp = true /\ (0 < sl)%Q /\ Qround_away (fdiv sl r) = s.
Proof.
  intros HS2 Hl M1 M2 bt bb kt kb s sl sp.
  destruct (axis_basic n L c r A Hr Hn HL1 HL2 HA1 HA2) as (B1 & B2 & B3 & B4 & B5 & B6 & B7 & B8 & B9 & B10 & B11).
  assert (DP : (0 < d)%Q) by (unfold ulp; lra).
  assert (El : (l / 2 == (1#2) * l)%Q) by field. assert (EL : (L / 2 == (1#2) * L)%Q) by field. rewrite El in *. 
  assert (XY : (- (2 * d) <= fadd q (fmul (1#2) l) - (q + (1#2) * l) /\ fadd q (fmul (1#2) l) - (q + (1#2) * l) <= 2 * d /\
                - (2 * d) <= fsub q (fmul (1#2) l) - (q - (1#2) * l) /\ fsub q (fmul (1#2) l) - (q - (1#2) * l) <= 2 * d)%Q).
  { rewrite EL in M1, M2. pose proof (nrA N A) as R. unfold fadd, fsub, fmul. set (nn := (inject_Z n * r)%Q) in *. 
    destruct (R ((1#2) * l)%Q (51#100) ltac:(lra) ltac:(lra)) as [a1 a2]. set (h := rnd ((1#2) * l)) in *. clearbody h.
    destruct (R (q + h)%Q (105#100) ltac:(lra) ltac:(lra)) as [b1 b2].
    destruct (R (q - h)%Q (105#100) ltac:(lra) ltac:(lra)) as [c1 c2]. split; [lra|]. split; [lra|]. split; lra. }
  destruct XY as (x1 & x2 & y1 & y2).
  destruct (corner_cell _ (q + (1#2) * l) x1 x2) as (W1 & K1 & T1 & T2); [lra|lra|].
  destruct (corner_cell _ (q - (1#2) * l) y1 y2) as (W2 & K2 & T3 & T4); [lra|lra|].
  fold bt kt in W1, K1, T1, T2. fold bb kb in W2, K2, T3, T4.
  assert (KK : kt < kb + 1).
  { rewrite Zlt_Qlt. apply Qmult_lt_r with (z := r); auto. rewrite inject_Z_plus. change (inject_Z 1) with 1%Q.
    set (u := ((inject_Z kb + 1) * r)%Q) in *. set (v := (inject_Z kt * r)%Q) in *. clearbody u v. lra. }
  destruct (sub_centre kt s ltac:(lia) ltac:(lia) ltac:(lia)) as (S1 & S2 & S3). fold sl in S1, S2, S3. fold sp in S2, S3.
  destruct (count_cells s sl ltac:(lia) S1) as [C1 C2].
  split; [auto with zarith|]. split; [auto|]. split; auto. split; auto. split; auto. split; [|auto].
  pose proof S1 as S1'. apply Qabs_Qle_condition in S1' as [s1 s2]. pose proof S2 as S2'. apply Qabs_Qle_condition in S2' as [s3 s4].
  pose proof (Qle_Qabs sp) as p1. pose proof (Qle_Qabs (- sp)) as p2. rewrite Qabs_opp in p2.
  assert (DD : (ulp * (A + r) <= 2 * d)%Q) by (unfold ulp; lra).
  assert (SN : (ulp * (inject_Z s * r) <= d)%Q).
  { apply Qmult_le_l; [reflexivity|]. apply Qle_trans with (inject_Z n * r)%Q; [|lra]. apply Qmult_le_compat_r; [rewrite <- Zle_Qle; lia|lra]. }
  assert (ESR : (inject_Z s * r == (inject_Z kb + 1) * r - inject_Z kt * r)%Q).
  { unfold s, Z.sub. rewrite !inject_Z_plus, inject_Z_opp. change (inject_Z 1) with 1%Q. ring. }
  apply (within_intro N s sl sp r (A + r)); auto; try lia.
  - clearbody sl sp. lra.
  - clearbody sl sp. lra.
  - set (sr := (inject_Z s * r)%Q) in *. clearbody sl sp sr. lra.
  - set (sr := (inject_Z s * r)%Q) in *. clearbody sl sp sr. lra.
  - assert (Es : (sl / 2 == (1#2) * sl)%Q) by field. rewrite Es in *.
    set (us := (ulp * (inject_Z s * r))%Q) in *. set (sr := (inject_Z s * r)%Q) in *.
    set (u := ((inject_Z kb + 1) * r)%Q) in *. set (v := (inject_Z kt * r)%Q) in *. set (dd := (ulp * (A + r))%Q) in *.
    clearbody sl sp us sr u v dd. lra.
  - assert (Es : (sl / 2 == (1#2) * sl)%Q) by field. rewrite Es in *.
    set (us := (ulp * (inject_Z s * r))%Q) in *. set (sr := (inject_Z s * r)%Q) in *.
    set (u := ((inject_Z kb + 1) * r)%Q) in *. set (v := (inject_Z kt * r)%Q) in *. set (dd := (ulp * (A + r))%Q) in *.
    clearbody sl sp us sr u v dd. lra.
Qed.

End SubAxis.

(** One axis of the extent of a submap with corners u and v. *)
Lemma cover_axis d r u v sp sl q l : (0 < d)%Q -> (0 < r)%Q -> forall p,
  (q + l / 2 <= u + 14 * d)%Q -> (u - r - 14 * d <= q + l / 2)%Q -> (q - l / 2 <= v + r + 14 * d)%Q -> (v - 14 * d <= q - l / 2)%Q ->
  (Qabs (sp + sl / 2 - u) <= 12 * d)%Q -> (Qabs (sl - (u - v)) <= d)%Q ->
  (Qabs (p - q) <= l / 2 -> sp - sl / 2 - 32 * d < p /\ p <= sp + sl / 2 + 32 * d)%Q /\
  (sp - sl / 2 < p -> p <= sp + sl / 2 -> Qabs (p - q) < l / 2 + r + 32 * d)%Q.
Proof.
  intros D Hr p. assert (E1 : (l / 2 == (1#2) * l)%Q) by field. assert (E2 : (sl / 2 == (1#2) * sl)%Q) by field.
  rewrite E1, E2. intros H1 H2 H3 H4 H5 H6. apply Qabs_Qle_condition in H5 as [a b]. apply Qabs_Qle_condition in H6 as [c e]. split.
  - intros H. apply Qabs_Qle_condition in H as [x y]. split; lra.
  - intros x y. apply Qabs_Qlt_condition. split; lra.
Qed.

Section SubMap.
Context {E : Env} (N : Near E).

(** A geometry of known cell counts, in any arithmetic. *)
Lemma setGeometry_counts l r p m n : reg_ok m -> 0 < fst n -> 0 < snd n -> (0 < r)%Q -> (0 < fst l)%Q -> (0 < snd l)%Q ->
  Qround_away (fdiv (fst l) r) = fst n -> Qround_away (fdiv (snd l) r) = snd n ->
  exists m', setGeometry l r p m = Ret tt m' /\ reg_ok m' /\ size m' = n /\
    len m' = (fmul (inject_Z (fst n)) r, fmul (inject_Z (snd n)) r) /\
    resn m' = r /\ pos m' = p /\ start m' = (0, 0) /\
    layers m' = layers m /\ basic m' = basic m /\ frame m' = frame m /\ stamp m' = stamp m /\
    (forall l, exists_layer m' l = exists_layer m l) /\ akeys (data m') = akeys (data m) /\
    (forall l i, has_layer m l -> in_range n i -> value_at m' l i NO_INFORMATION).
Proof.
  intros R N0 N1 H3 H1 H2 C0 C1.
  pose (m1 := set_size (set_data m (map (fun kv => (fst kv, mconst (fst n) (snd n) 0)) (data m))) (fst n, snd n)).
  assert (R1 : reg_ok m1).
  { pose proof (r_mat _ R) as D. destruct R as [A B C _]. constructor; simpl; auto.
    - now rewrite akeys_map with (f := fun kv => mconst (fst n) (snd n) 0).
    - intros l'. now rewrite akeys_map with (f := fun kv => mconst (fst n) (snd n) 0).
    - intros l' d. rewrite (aget_map (fun x => mconst (fst n) (snd n) 0)).
      destruct (aget (data m) l'); [|discriminate]. intros K; injection K as <-. split; auto. apply wf_mconst; lia. }
  destruct (clearAll_ok m1 R1) as (m2 & Hc & V & Ex & L2 & M2).
  assert (Sz : size m2 = n).
  { transitivity (size m1); [symmetry; apply M2|]. now destruct n. }
  assert (setGeometry l r p m = Ret tt (set_geo m2 (fmul (inject_Z (fst n)) r, fmul (inject_Z (snd n)) r) r p (0, 0))) as HG.
  { unfold setGeometry.
    rewrite (proj2 (Qlt_bool_iff 0 (fst l))), (proj2 (Qlt_bool_iff 0 (snd l))), (proj2 (Qlt_bool_iff 0 r)) by auto.
    cbn [andb negb]. rewrite C0, C1. unfold bind at 1. unfold resize, modify. cbn [fst snd]. fold m1. unfold bind at 1.
    rewrite Hc. rewrite Sz. reflexivity. }
  eexists; split; [exact HG|]. cbn [size len resn pos start layers basic frame stamp data set_geo fst snd].
  destruct M2 as (F1 & F2 & F3 & F4 & F5 & F6 & F7 & F8).
  split.
  { pose proof (pres_clearAll m1) as PC. rewrite Hc in PC. simpl in PC.
    destruct PC as [[A B C D] _]. { split; auto. simpl; lia. } constructor; auto. }
  split; auto. split; auto. split; auto. split; auto. split; auto.
  split; [exact L2|]. split; [symmetry; assumption|]. split; [symmetry; assumption|]. split; [symmetry; assumption|].
  split; [|split].
  - intros l0. change (exists_layer (set_geo m2 (fmul (inject_Z (fst n)) r, fmul (inject_Z (snd n)) r) r p (0, 0)) l0) with (exists_layer m2 l0).
    rewrite Ex. unfold exists_layer, amem. cbn [m1 data set_data set_size].
    rewrite (aget_map (fun x => mconst (fst n) (snd n) 0)). now destruct (aget (data m) l0).
  - unfold clearAll, modify in Hc. injection Hc as <-. cbn [data set_data m1 set_size]. unfold akeys. rewrite !map_map.
    apply map_ext. intros [? ?]; reflexivity.
  - intros l' i [d Hd'] Hi. apply V; [|exact Hi]. exists (mconst (fst n) (snd n) 0).
    cbn [m1 data set_data set_size]. rewrite (aget_map (fun x => mconst (fst n) (snd n) 0)), Hd'. reflexivity.
Qed.

(** The copy, whatever the arithmetic that found the window. *)
Lemma getSubmap_window m q l i : reg_ok m -> 0 < fst (size m) -> 0 < snd (size m) -> (0 < resn m)%Q ->
  submap_information q l (len m) (pos m) (resn m) (size m) (start m) = Some i ->
  window_ok (size m) (start m) (si_start i) (si_size i) ->
  (0 < fst (si_len i))%Q -> (0 < snd (si_len i))%Q ->
  Qround_away (fdiv (fst (si_len i)) (resn m)) = fst (si_size i) ->
  Qround_away (fdiv (snd (si_len i)) (resn m)) = snd (si_size i) ->
  exists sub, getSubmap m q l = Ok (true, sub) /\ reg_ok sub /\
    size sub = si_size i /\ pos sub = si_pos i /\ resn sub = resn m /\ start sub = (0, 0) /\
    len sub = (fmul (inject_Z (fst (si_size i))) (resn m), fmul (inject_Z (snd (si_size i))) (resn m)) /\
    layers sub = layers m /\ basic sub = basic m /\ frame sub = frame m /\ stamp sub = stamp m /\
    forall w, in_range (size sub) w -> let j := window_cell (size m) (start m) (si_start i) w in
      in_range (size m) j /\ forall l, at_ sub l w = at_ m l j.
Proof.
  intros R M0 M1 Hr HI W L0 L1 Q0 Q1.
  assert (N0 : 0 < fst (si_size i)) by apply W. assert (N1 : 0 < snd (si_size i)) by apply W.
  unfold getSubmap. rewrite HI. set (sub0 := set_frame _ _).
  assert (reg_ok sub0) as R0.
  { pose proof (new_map_reg (layers m) (r_nodup _ R)) as K. unfold sub0.
    destruct K as [K1 K2 K3 K4]. constructor; auto. }
  destruct (setGeometry_counts (si_len i) (resn m) (si_pos i) sub0 (si_size i)) as
    (sub1 & H & R1 & Z1 & G1 & E1 & E2 & E3 & E4 & E5 & E6 & E7 & E8 & E9 & _); auto.
  rewrite H. cbn [size set_start].
  pose proof (copy_window (size m) (start m) (si_start i) (si_size i)) as CW.
  destruct (buffer_regions (si_start i) (size sub1) (size m) (start m)) as [bs|] eqn:HB.
  2: { exfalso. rewrite Z1 in HB. rewrite HB in CW.
       apply (CW (mconst (fst (size m)) (snd (size m)) 0) (mconst (fst (si_size i)) (snd (si_size i)) 0)); auto.
       - apply wf_mconst; lia.
       - apply wf_mconst; lia. }
  rewrite Z1 in HB. clear CW. cbn [data set_start].
  destruct (copy_layers_ok (size m) (start m) (si_start i) (si_size i) bs W HB (data m) (data sub1)) as
    (dst & C1 & C2 & C3 & C4).
  { apply R. } { intros k d Hd. apply (r_mat _ R k d Hd). }
  { intros k Hk. apply (r_same _ R) in Hk.
    assert (In k (akeys (data sub1))) as Hk1.
    { apply (r_same _ R1). rewrite E4. exact Hk. }
    apply aget_In in Hk1. destruct Hk1 as [d0 Hd0]. exists d0. split; auto. rewrite <- Z1.
    apply (r_mat _ R1 k d0 Hd0). }
  rewrite C1. cbn [rbind]. eexists. split; [reflexivity|].
  set (sub := set_data _ _).
  assert (Keys : akeys dst = akeys (data sub1)) by exact C2.
  assert (Same : forall k, In k (akeys dst) <-> In k (akeys (data m))).
  { intros k. rewrite Keys, <- (r_same _ R1), E4. apply (r_same _ R). }
  split.
  { constructor; cbn [sub layers data set_data set_start size].
    - apply R1.
    - rewrite Keys. apply R1.
    - intros k. rewrite Keys. apply R1.
    - intros k d Hd. assert (In k (akeys (data m))) as Hk by (apply Same; apply aget_In; eauto).
      apply aget_In in Hk. destruct Hk as [d0 Hd0]. destruct (C4 k d0 Hd0) as (d' & Hd' & V1 & V2 & V3 & _).
      rewrite Hd in Hd'. injection Hd' as <-. rewrite Z1. auto. }
  split; [exact Z1|]. split; [exact E2|]. split; [exact E1|]. split; [reflexivity|]. split; [exact G1|].
  split; [exact E4|]. split; [exact E5|]. split; [exact E6|]. split; [exact E7|].
  cbn zeta. intros w Hw. change (size sub) with (size sub1) in Hw. rewrite Z1 in Hw.
  destruct (window_wrap (size m) (start m) (si_start i) (si_size i) w W Hw) as [Rw Ew].
  split. { rewrite <- Ew. apply wrap_in_range; auto. apply W. }
  intros k. unfold at_. change (data sub) with dst.
  destruct (aget (data m) k) as [d|] eqn:K.
  - destruct (C4 k d K) as (d' & Hd' & _ & _ & _ & V). rewrite Hd'. rewrite V by auto. reflexivity.
  - destruct (aget dst k) as [d'|] eqn:K'; auto. exfalso.
    apply aget_None in K. apply K. apply Same. apply aget_In. eauto.
Qed.

Context (W : Z) (HW : W < 2 ^ 44).

Lemma submap_double_info m q l : dgeo W m -> reg_ok m ->
  inside_by (- (2 * blur W m)) m (fst q + fst l / 2, snd q + snd l / 2)%Q ->
  inside_by (- (2 * blur W m)) m (fst q - fst l / 2, snd q - snd l / 2)%Q ->
  (5 * blur W m <= fst l)%Q -> (5 * blur W m <= snd l)%Q ->
  exists i sub, submap_information q l (len m) (pos m) (resn m) (size m) (start m) = Some i /\
    window_ok (size m) (start m) (si_start i) (si_size i) /\
    size sub = si_size i /\ pos sub = si_pos i /\ len sub = si_len i /\ si_req i = snd (getIndex sub q) /\
    getSubmap m q l = Ok (true, sub) /\ dgeo (W + 1) sub /\ reg_ok sub /\
    layers sub = layers m /\ basic sub = basic m /\ frame sub = frame m /\ stamp sub = stamp m /\
    resn sub = resn m /\ start sub = (0, 0) /\
    (forall w, in_range (size sub) w -> let j := window_cell (size m) (start m) (si_start i) w in
       in_range (size m) j /\ close (blur W m) (centre sub w) (centre m j) /\ forall k, at_ sub k w = at_ m k j) /\
    (forall p, (Qabs (fst p - fst q) <= fst l / 2)%Q -> (Qabs (snd p - snd q) <= snd l / 2)%Q -> inside_by (2 * blur W m) sub p) /\
    (forall p, inside_by 0 sub p -> (Qabs (fst p - fst q) < fst l / 2 + resn m + 2 * blur W m)%Q /\
                                    (Qabs (snd p - snd q) < snd l / 2 + resn m + 2 * blur W m)%Q).
Proof.
  intros G R IU IL LL0 LL1. pose proof (d_res _ _ G) as Hr. destruct (d_size _ _ G) as [M0 M1].
  pose proof (d_start _ _ G) as Hs.
  destruct (axis_hyps _ _ _ _ W Hr M0 (d_len0 _ _ G) (d_far0 _ _ G)) as (a1 & a2 & a3 & a4 & a5).
  destruct (axis_hyps _ _ _ _ W Hr M1 (d_len1 _ _ G) (d_far1 _ _ G)) as (b1 & b2 & b3 & b4 & b5).
  assert (HS : (512 * (ulp * (inject_Z W * resn m)) <= resn m)%Q) by (apply small_A; auto; lia).
  assert (HS2 : (512 * (ulp * (inject_Z W * resn m + resn m)) <= resn m)%Q).
  { pose proof (small_A (W + 1) m ltac:(lia) Hr) as K. rewrite inject_Z_plus in K. change (inject_Z 1) with 1%Q in K. 
    setoid_replace (inject_Z W * resn m + resn m)%Q with ((inject_Z W + 1) * resn m)%Q by ring. exact K. }
  pose proof (blur_eq W m) as EB.
  assert (N0 : (resn m <= inject_Z (fst (size m)) * resn m)%Q).
  { setoid_replace (resn m) with (1 * resn m)%Q at 1 by ring. apply Qmult_le_compat_r; [|lra].
    change 1%Q with (inject_Z 1). rewrite <- Zle_Qle. lia. }
  assert (N1 : (resn m <= inject_Z (snd (size m)) * resn m)%Q).
  { setoid_replace (resn m) with (1 * resn m)%Q at 1 by ring. apply Qmult_le_compat_r; [|lra].
    change 1%Q with (inject_Z 1). rewrite <- Zle_Qle. lia. }
  assert (DP : (0 < ulp * (inject_Z W * resn m))%Q).
  { set (nn := (inject_Z (fst (size m)) * resn m)%Q) in *. unfold ulp. lra. }
  destruct IU as (u1 & u2 & u3 & u4). destruct IL as (v1 & v2 & v3 & v4).
  unfold lower, upper in u1, u2, u3, u4, v1, v2, v3, v4. cbn [fst snd] in *.
  destruct (sub_axis N _ _ _ _ _ Hr a1 a2 a3 a4 a5 HS (fst q) (fst l) HS2) as
    ((A1 & A2 & A3 & A4 & A5) & (A6 & A7 & A8 & A9) & A10 & A11 & A12 & A13 & A14 & A15);
    [set (dd := (ulp * (inject_Z W * resn m))%Q) in *; lra..|].
  destruct (sub_axis N _ _ _ _ _ Hr b1 b2 b3 b4 b5 HS (snd q) (snd l) HS2) as
    ((B1 & B2 & B3 & B4 & B5) & (B6 & B7 & B8 & B9) & B10 & B11 & B12 & B13 & B14 & B15);
    [set (dd := (ulp * (inject_Z W * resn m))%Q) in *; lra..|].
  set (bt0 := bound_position1 (fadd (fst q) (fmul (1#2) (fst l))) (fst (len m)) (fst (pos m))) in *.
  set (bb0 := bound_position1 (fsub (fst q) (fmul (1#2) (fst l))) (fst (len m)) (fst (pos m))) in *.
  set (bt1 := bound_position1 (fadd (snd q) (fmul (1#2) (snd l))) (snd (len m)) (snd (pos m))) in *.
  set (bb1 := bound_position1 (fsub (snd q) (fmul (1#2) (snd l))) (snd (len m)) (snd (pos m))) in *.
  set (t0 := raw_index1 bt0 (fst (len m)) (fst (pos m)) (resn m)) in *.
  set (k0 := raw_index1 bb0 (fst (len m)) (fst (pos m)) (resn m)) in *.
  set (t1 := raw_index1 bt1 (snd (len m)) (snd (pos m)) (resn m)) in *.
  set (k1 := raw_index1 bb1 (snd (len m)) (snd (pos m)) (resn m)) in *.
  set (sl0 := fmul (inject_Z (k0 - t0 + 1)) (resn m)) in *. set (sl1 := fmul (inject_Z (k1 - t1 + 1)) (resn m)) in *.
  set (sp0 := fsub (fadd (position1 t0 (fst (len m)) (fst (pos m)) (resn m)) (fmul (1#2) (resn m))) (fmul (1#2) sl0)) in *.
  set (sp1 := fsub (fadd (position1 t1 (snd (len m)) (snd (pos m)) (resn m)) (fmul (1#2) (resn m))) (fmul (1#2) sl1)) in *.
  assert (Rt : in_range (size m) (t0, t1)) by (unfold in_range; cbn [fst snd]; lia).
  assert (Rk : in_range (size m) (k0, k1)) by (unfold in_range; cbn [fst snd]; lia).
  set (st := wrap_index (t0, t1) (size m) (start m)).
  assert (Ust : unwrap_index st (size m) (start m) = (t0, t1)) by (apply unwrap_wrap; auto).
  assert (Rst : in_range (size m) st) by (apply wrap_in_range; auto).
  assert (HI : submap_information q l (len m) (pos m) (resn m) (size m) (start m) =
     Some (SubInfo st (k0 - t0 + 1, k1 - t1 + 1) (sp0, sp1) (sl0, sl1)
       (snd (index_from_position q (sl0, sl1) (sp0, sp1) (resn m) (k0 - t0 + 1, k1 - t1 + 1) (0, 0))))).
  { unfold submap_information, index_from_position, position_within_map, bound_position. cbn [fst snd].
    fold bt0 bt1 bb0 bb1 t0 t1 k0 k1. rewrite A1, B1, A2, B2. cbn [andb negb].
    fold st. rewrite Ust. rewrite (unwrap_wrap (k0, k1)) by auto. unfold position_from_index.
    rewrite (proj2 (index_in_range_iff st (size m)) Rst). rewrite Ust. cbn [fst snd]. fold sl0 sl1. fold sp0 sp1.
    rewrite A13, B13. cbn [andb]. reflexivity. }
  assert (WO : window_ok (size m) (start m) st (k0 - t0 + 1, k1 - t1 + 1)).
  { unfold window_ok. split; auto. split; auto. cbn [fst snd]. split; [lia|]. split; [lia|].
    rewrite unwrap_index_mod in Ust by auto. injection Ust as U0 U1. rewrite U0, U1. lia. }
  destruct (getSubmap_window m q l _ R M0 M1 Hr HI WO A14 B14 A15 B15) as
    (sub & HG & RS & Z1 & Z2 & Z3 & Z4 & Z5 & Z6 & Z7 & Z8 & Z9 & Cells).
  cbn [si_size si_pos si_start fst snd] in *.
  fold sl0 in Z5. fold sl1 in Z5.
  match type of HI with _ = Some ?x => exists x, sub end. split; [exact HI|]. split; [exact WO|]. cbn [si_size si_pos si_len si_req si_start].
  split; [exact Z1|]. split; [exact Z2|]. split; [exact Z5|].
  split. { unfold getIndex. now rewrite Z1, Z2, Z3, Z4, Z5. } split; [exact HG|].
  assert (GS : dgeo (W + 1) sub).
  { constructor; rewrite ?Z1, ?Z2, ?Z3, ?Z4, ?Z5; cbn [fst snd]; auto.
    - lia.
    - unfold in_range; cbn [fst snd]; lia.
    - rewrite (inject_Z_plus W). change (inject_Z 1) with 1%Q. rewrite Qmult_plus_distr_l, Qmult_1_l. exact A12.
    - rewrite (inject_Z_plus W). change (inject_Z 1) with 1%Q. rewrite Qmult_plus_distr_l, Qmult_1_l. exact B12. }
  split; auto. split; auto. split; auto. split; auto. split; auto. split; auto. split; auto. split; auto.
  assert (SN : forall a b n', a <= b -> 0 <= a -> b < n' -> (inject_Z n' * resn m <= inject_Z W * resn m)%Q ->
    (ulp * (inject_Z (b - a + 1) * resn m) <= ulp * (inject_Z W * resn m))%Q).
  { intros a b n' H1 H2 H3 H4. apply Qmult_le_l; [reflexivity|]. eapply Qle_trans; [|exact H4].
    apply Qmult_le_compat_r; [rewrite <- Zle_Qle; lia|lra]. }
  assert (ES : forall a b x : Z, (inject_Z (b - a + 1) * resn m == (inject_Z b + 1) * resn m - inject_Z a * resn m)%Q).
  { intros a b _. unfold Z.sub. rewrite !inject_Z_plus, inject_Z_opp. change (inject_Z 1) with 1%Q. ring. }
  pose proof (Qabs_nonneg (fst (pos m))) as Q0. pose proof (Qabs_nonneg (snd (pos m))) as Q1.
  pose proof (d_far0 _ _ G) as F0. pose proof (d_far1 _ _ G) as F1.
  assert (CA0 := cover_axis (ulp * (inject_Z W * resn m)) (resn m) (fst (pos m) + fst (len m) / 2 - inject_Z t0 * resn m)
    (fst (pos m) + fst (len m) / 2 - (inject_Z k0 + 1) * resn m) sp0 sl0 (fst q) (fst l) DP Hr).
  assert (CA1 := cover_axis (ulp * (inject_Z W * resn m)) (resn m) (snd (pos m) + snd (len m) / 2 - inject_Z t1 * resn m)
    (snd (pos m) + snd (len m) / 2 - (inject_Z k1 + 1) * resn m) sp1 sl1 (snd q) (snd l) DP Hr).
  assert (T : forall a, ((a + 1) * resn m == a * resn m + resn m)%Q) by (intros; ring).
  specialize (fun h1 h2 h3 h4 h5 h6 p => CA0 p h1 h2 h3 h4 h5 h6). specialize (fun h1 h2 h3 h4 h5 h6 p => CA1 p h1 h2 h3 h4 h5 h6).
  pose proof (T (inject_Z t0)) as T0. pose proof (T (inject_Z t1)) as T1. pose proof (T (inject_Z k0)) as T2. pose proof (T (inject_Z k1)) as T3.
  pose proof (SN t0 k0 _ A4 A3 A5 ltac:(lra)) as SN0. pose proof (SN t1 k1 _ B4 B3 B5 ltac:(lra)) as SN1.
  pose proof (ES t0 k0 0) as ES0. pose proof (ES t1 k1 0) as ES1.
  assert (A10' := A10). assert (B10' := B10). apply Qabs_Qle_condition in A10' as [z1 z2]. apply Qabs_Qle_condition in B10' as [z3 z4].
  assert (forall p, (Qabs (p - fst q) <= fst l / 2 -> sp0 - sl0 / 2 - 32 * (ulp * (inject_Z W * resn m)) < p /\ p <= sp0 + sl0 / 2 + 32 * (ulp * (inject_Z W * resn m)))%Q /\
    (sp0 - sl0 / 2 < p -> p <= sp0 + sl0 / 2 -> Qabs (p - fst q) < fst l / 2 + resn m + 32 * (ulp * (inject_Z W * resn m)))%Q) as CA0'.
  { apply CA0; clear CA0 CA1; auto; [lra..|]. apply Qabs_Qle_condition. clear - z1 z2 SN0 ES0. split; lra. }
  assert (forall p, (Qabs (p - snd q) <= snd l / 2 -> sp1 - sl1 / 2 - 32 * (ulp * (inject_Z W * resn m)) < p /\ p <= sp1 + sl1 / 2 + 32 * (ulp * (inject_Z W * resn m)))%Q /\
    (sp1 - sl1 / 2 < p -> p <= sp1 + sl1 / 2 -> Qabs (p - snd q) < snd l / 2 + resn m + 32 * (ulp * (inject_Z W * resn m)))%Q) as CA1'.
  { apply CA1; clear CA0 CA1; auto; [lra..|]. apply Qabs_Qle_condition. clear - z3 z4 SN1 ES1. split; lra. }
  clear CA0 CA1. rename CA0' into CA0. rename CA1' into CA1.
  split; [|split].
  - intros w Hw. destruct (Cells w Hw) as [RC EC]. cbv zeta in *. split; [exact RC|]. split; [|exact EC].
    rewrite Z1 in Hw.
    destruct (window_wrap (size m) (start m) st (k0 - t0 + 1, k1 - t1 + 1) w WO Hw) as [Rw Ew]. rewrite Ust in Rw, Ew.
    assert (Wm : world_index m (window_cell (size m) (start m) st w) = (t0 + fst w, t1 + snd w)).
    { unfold world_index. rewrite <- unwrap_index_mod by auto. rewrite <- Ew. apply unwrap_wrap; auto. }
    assert (Ws : world_index sub w = w).
    { unfold world_index. rewrite Z4, Z1. cbn [fst snd].
      destruct Hw as [? ?]. cbn [fst snd] in *. rewrite !Z.sub_0_r, !Z.mod_small by lia. now destruct w. }
    unfold close, centre. rewrite Wm, Ws, Z2, Z3, Z5. cbn [fst snd]. unfold centre1.
    rewrite (inject_Z_plus t0), (inject_Z_plus t1). apply Qabs_Qle_condition in A11 as [x1 x2]. apply Qabs_Qle_condition in B11 as [y1 y2].
    rewrite EB. set (dd := (ulp * (inject_Z W * resn m))%Q) in *.
    split; apply Qabs_Qle_condition.
    + setoid_replace (sp0 + sl0 / 2 - (inject_Z (fst w) + (1#2)) * resn m - (fst (pos m) + fst (len m) / 2 - (inject_Z t0 + inject_Z (fst w) + (1#2)) * resn m))%Q
        with (sp0 + sl0 / 2 - (fst (pos m) + fst (len m) / 2 - inject_Z t0 * resn m))%Q by ring. split; lra.
    + setoid_replace (sp1 + sl1 / 2 - (inject_Z (snd w) + (1#2)) * resn m - (snd (pos m) + snd (len m) / 2 - (inject_Z t1 + inject_Z (snd w) + (1#2)) * resn m))%Q
        with (sp1 + sl1 / 2 - (snd (pos m) + snd (len m) / 2 - inject_Z t1 * resn m))%Q by ring. split; lra.
  - intros p P0 P1. unfold inside_by, lower, upper. rewrite Z2, Z5. cbn [fst snd]. rewrite EB.
    destruct (CA0 (fst p)) as [X0 _]. destruct (CA1 (snd p)) as [X1 _]. destruct (X0 P0), (X1 P1).
    setoid_replace (2 * (16 * (ulp * (inject_Z W * resn m))))%Q with (32 * (ulp * (inject_Z W * resn m)))%Q by ring. auto.
  - intros p P. unfold inside_by, lower, upper in P. rewrite Z2, Z5 in P. cbn [fst snd] in P. destruct P as (p1 & p2 & p3 & p4).
    destruct (CA0 (fst p)) as [_ X0]. destruct (CA1 (snd p)) as [_ X1]. rewrite EB.
    setoid_replace (2 * (16 * (ulp * (inject_Z W * resn m))))%Q with (32 * (ulp * (inject_Z W * resn m)))%Q by ring.
    split; [apply X0|apply X1]; lra.
Qed.

Lemma submap_double m q l : dgeo W m -> reg_ok m ->
  inside_by (- (2 * blur W m)) m (fst q + fst l / 2, snd q + snd l / 2)%Q ->
  inside_by (- (2 * blur W m)) m (fst q - fst l / 2, snd q - snd l / 2)%Q ->
  (5 * blur W m <= fst l)%Q -> (5 * blur W m <= snd l)%Q ->
  exists sub, getSubmap m q l = Ok (true, sub) /\ dgeo (W + 1) sub /\ reg_ok sub /\
    layers sub = layers m /\ basic sub = basic m /\ frame sub = frame m /\ stamp sub = stamp m /\
    resn sub = resn m /\ start sub = (0, 0) /\
    (forall j, in_range (size sub) j -> exists i, in_range (size m) i /\ close (blur W m) (centre sub j) (centre m i) /\
       forall k, at_ sub k j = at_ m k i) /\
    (forall p, (Qabs (fst p - fst q) <= fst l / 2)%Q -> (Qabs (snd p - snd q) <= snd l / 2)%Q -> inside_by (2 * blur W m) sub p) /\
    (forall p, inside_by 0 sub p -> (Qabs (fst p - fst q) < fst l / 2 + resn m + 2 * blur W m)%Q /\
                                    (Qabs (snd p - snd q) < snd l / 2 + resn m + 2 * blur W m)%Q).
Proof.
  intros G R IU IL LL0 LL1. destruct (submap_double_info m q l G R IU IL LL0 LL1) as
    (i & sub & _ & _ & _ & _ & _ & _ & HG & A1 & A2 & A3 & A4 & A5 & A6 & A7 & A8 & Cells & T).
  exists sub. split; [exact HG|]. split; [exact A1|]. split; [exact A2|]. split; [exact A3|]. split; [exact A4|]. split; [exact A5|]. split; [exact A6|].
  split; [exact A7|]. split; [exact A8|]. split; [|exact T]. intros j Hj. eexists. exact (Cells j Hj).
Qed.

End SubMap.
