(** CostMap::extendToInclude. *)
From Coq Require Import ZArith QArith Qround Qabs Qreduction Qfield String List Bool Lia Lqa.
From Coq Require Import ZifyBool.
From Verif Require Import Base Mat GridMapMath GridIter CostMap History BaseLemmas Spec GeoLemmas CoreProofs CoreProofs2 CoreFinal IterProofs MoveProofs AddDataProofs SubmapProofs.
Import ListNotations.
Open Scope Z_scope.

Definition mx (a b : Q) : Q := if Qlt_le_dec a b then b else a.
Definition mn (a b : Q) : Q := if Qlt_le_dec b a then b else a.

Section Copy.
Context {E : Env}.

(** ** The copying loop *)

Definition copied (old m : cmap) (i : idx) (l : string) : res Z :=
  match getPosition m i with
  | Some p => if isInside old p && smem l (layers old) then at_ old l (snd (getIndex old p)) else at_ m l i
  | None => Throw OutOfRange
  end.

Lemma copy_cells m old : in_range (size m) (start m) -> meets m old -> reg_ok' m -> basics_exist m -> reg_ok old ->
  layers m = layers old ->
  (forall l i, In l (layers m) -> in_range (size m) i -> at_ m l i = Ok NO_INFORMATION) ->
  exists m', bind (lift (map_visits (size m) (start m))) (fun vs => mfor vs (copy_from old)) m = Ret tt m' /\
    cells m m' /\ forall l i, in_range (size m) i -> at_ m' l i = copied old m i l.
Proof.
  intros G MT R B Ro HL HU. unfold bind. rewrite map_visits_ok by auto. cbn [lift].
  assert (Lo : forall l, In l (layers m) -> has_layer old l).
  { intros l Hl. rewrite HL in Hl. apply exists_has. now apply akeys_has. }
  assert (Lm : forall l, In l (layers m) -> has_layer m l).
  { intros l Hl. apply exists_has. apply akeys_has; auto. apply R. }
  destruct (visit_cells (copied old m) (copy_from old) m R (visit_list (size m) (start m)))
    as (m' & H & C & A).
  - apply visit_list_NoDup. auto.
  - intros i mc Hi C SA. apply (visit_list_In _ _ _ G) in Hi.
    assert (M : same_meta m mc) by apply C.
    assert (Hb : basic mc = basic m) by (symmetry; apply M).
    assert (Ml : layers mc = layers m) by apply C.
    destruct (isValid_cell m i (proj1 R) Hi B) as (b & Vb & Vi).
    assert (b = false) as ->.
    { destruct b; auto. exfalso. destruct (proj1 Vi eq_refl) as [N V]. destruct (basic m) as [|b bs] eqn:Eb; [congruence|].
      destruct (V b (or_introl eq_refl)) as (v & V1 & V2). apply V2.
      assert (In b (layers m)) as Ib. { apply akeys_has; [apply R|]. apply exists_has. apply B. rewrite Eb. now left. }
      specialize (HU b i Ib Hi). apply CoreProofs2.at_value in HU. eapply value_fun; eauto. }
    destruct (MT i Hi) as (p & Hp & IP).
    unfold copy_from. unfold bind at 1. rewrite (isValid_same m mc i Hb SA), Vb. cbn [lift].
    unfold copied. rewrite (position_meta m mc i M), Hp, <- HL.
    destruct (isInside old p) eqn:Ins; cbn [negb andb].
    2:{ exists mc. split; [reflexivity|]. split; auto. intros l' i'. destruct (idx_eqb i' i) eqn:Ki; auto.
        apply idx_eqb_eq in Ki. subst. apply SA. }
    set (j := snd (getIndex old p)).
    assert (Rj : in_range (size old) j) by auto.
    destruct (write_cells (fun l => match at_ old l j with Ok w => Some w | _ => None end)
      i (fun l => bind (lift (at_ old l j)) (fun w => at_set l i w)) (layers mc))
      with (m := mc) as (m1 & H1 & C1 & A1).
    + intros l m1 Hl. unfold bind. rewrite Ml in Hl. destruct (reg_value old l j Ro (Lo l Hl) Rj) as [w Hw].
      apply CoreProofs2.at_value in Hw. rewrite Hw. cbn [rbind lift]. reflexivity.
    + apply C.
    + rewrite (cells_size _ _ C). auto.
    + intros l Hl. apply (cells_has _ _ _ C). rewrite Ml in Hl. auto.
    + exists m1. split; [exact H1|]. split; [eapply cells_trans; eauto|].
      intros l' i'. rewrite A1, Ml. destruct (idx_eqb i' i) eqn:Ki; cbn [andb]; auto.
      apply idx_eqb_eq in Ki. subst i'. destruct (smem l' (layers m)) eqn:Ks; [|apply SA].
      apply smem_In in Ks. destruct (reg_value old l' j Ro (Lo l' Ks) Rj) as [w Hw].
      apply CoreProofs2.at_value in Hw. rewrite Hw. reflexivity.
  - exists m'. split; auto. split; auto. intros l i Hi. rewrite A.
    replace (existsb (idx_eqb i) (visit_list (size m) (start m))) with true; auto.
    symmetry. apply existsb_exists. exists i. split; [|now apply idx_eqb_eq]. apply visit_list_In; auto.
Qed.

End Copy.

Section Extend.
Context {E : Env} (X : Exact E).

Lemma extend_axis_ok c L co Lo c' L' b : extend_axis c L co Lo = (c', L', b) ->
  (c' + L' / 2 == mx (c + L / 2) (co + Lo / 2))%Q /\
  (c' - L' / 2 == mn (c - L / 2) (co - Lo / 2))%Q /\
  (b = false -> c' = c /\ L' = L) /\
  (b = false <-> (co + Lo / 2 <= c + L / 2)%Q /\ (c - L / 2 <= co - Lo / 2)%Q) /\
  (L <= L')%Q.
Proof.
  unfold extend_axis.
  set (top := fadd c (fdiv L (2 # 1))). set (bot := fsub c (fdiv L (2 # 1))).
  set (topo := fadd co (fdiv Lo (2 # 1))). set (boto := fsub co (fdiv Lo (2 # 1))).
  assert (T : (top == c + L / 2)%Q) by (unfold top; exqX X; reflexivity).
  assert (B : (bot == c - L / 2)%Q) by (unfold bot; exqX X; reflexivity).
  assert (To : (topo == co + Lo / 2)%Q) by (unfold topo; exqX X; reflexivity).
  assert (Bo : (boto == co - Lo / 2)%Q) by (unfold boto; exqX X; reflexivity).
  clearbody top bot topo boto.
  assert (L == L / 2 + L / 2)%Q as HL by field. generalize dependent (L / 2)%Q. intros h T B HL.
  generalize dependent (Lo / 2)%Q. intros ho To Bo.
  assert (H2 : forall x, (x / 2 + x / 2 == x)%Q) by (intros; field).
  unfold mx, mn.
  destruct (Qlt_bool top topo) eqn:K1; [apply Qlt_bool_iff in K1|apply Qlt_bool_false in K1];
  (destruct (Qlt_bool boto bot) eqn:K2; [apply Qlt_bool_iff in K2|apply Qlt_bool_false in K2]);
  (destruct (Qlt_le_dec (c + h) (co + ho)); [|try (exfalso; lra)]); try (exfalso; lra);
  (destruct (Qlt_le_dec (co - ho) (c - h)); [|try (exfalso; lra)]); try (exfalso; lra);
  injection 1 as Ec El <-.
  - assert (Qc : (c' == c + (topo - top) / 2 - (bot - boto) / 2)%Q) by (rewrite <- Ec; exqX X; reflexivity).
    assert (Ql : (L' == L + (topo - top) + (bot - boto))%Q) by (rewrite <- El; exqX X; reflexivity).
    assert (A0 := H2 (topo - top)%Q). assert (A1 := H2 (bot - boto)%Q). assert (A2 := H2 L').
    split; [lra|]. split; [lra|]. split; [discriminate|]. split; [split; [discriminate|intros; exfalso; lra]|lra].
  - assert (Qc : (c' == c + (topo - top) / 2)%Q) by (rewrite <- Ec; exqX X; reflexivity).
    assert (Ql : (L' == L + (topo - top))%Q) by (rewrite <- El; exqX X; reflexivity).
    assert (A0 := H2 (topo - top)%Q). assert (A2 := H2 L').
    split; [lra|]. split; [lra|]. split; [discriminate|]. split; [split; [discriminate|intros; exfalso; lra]|lra].
  - assert (Qc : (c' == c - (bot - boto) / 2)%Q) by (rewrite <- Ec; exqX X; reflexivity).
    assert (Ql : (L' == L + (bot - boto))%Q) by (rewrite <- El; exqX X; reflexivity).
    assert (A1 := H2 (bot - boto)%Q). assert (A2 := H2 L').
    split; [lra|]. split; [lra|]. split; [discriminate|]. split; [split; [discriminate|intros; exfalso; lra]|lra].
  - subst c' L'. assert (A3 := H2 L). split; [lra|]. split; [lra|]. split; [auto|]. split; [split; [intros; lra|reflexivity]|lra].
Qed.

Lemma parity_split a b : 0 <= a -> 0 <= b ->
  (Z.rem a 2 =? Z.rem b 2 = true /\ exists h, a - b = 2 * h) \/
  (Z.rem a 2 =? Z.rem b 2 = false /\ exists h, a - b = 2 * h + 1).
Proof.
  intros Ha Hb. rewrite !Z.rem_mod_nonneg by lia.
  pose proof (Z.mod_pos_bound a 2 ltac:(lia)). pose proof (Z.mod_pos_bound b 2 ltac:(lia)).
  pose proof (Z.div_mod a 2 ltac:(lia)). pose proof (Z.div_mod b 2 ltac:(lia)).
  destruct (Z.eqb_spec (a mod 2) (b mod 2)).
  - left. split; auto. exists (a / 2 - b / 2). lia.
  - right. split; auto. destruct (Z.eq_dec (a mod 2) 1).
    + exists (a / 2 - b / 2). lia.
    + exists (a / 2 - b / 2 - 1). lia.
Qed.

(** The corrected centre keeps the old grid lines. *)
Lemma align_axis_ok cn co r nn no : (0 < r)%Q -> 0 <= nn -> 0 <= no ->
  exists k : Z, (align_axis cn co r nn no + inject_Z nn * r / 2 == co + inject_Z no * r / 2 + inject_Z k * r)%Q.
Proof.
  intros Hr Nn No. unfold align_axis, Qfmod.
  set (d := fsub cn co). assert (Hd : (d == cn - co)%Q) by apply (fsub_eq X).
  set (T := Qtrunc (d / r)). set (sh := (d - r * inject_Z T)%Q).
  set (c1 := if Qlt_bool (Qabs sh) (fdiv r (2 # 1)) then _ else _).
  assert (H1 : exists k : Z, (c1 == co + inject_Z k * r)%Q).
  { unfold c1. destruct (Qlt_bool _ _).
    - exists T. rewrite (fsub_eq X). unfold sh. rewrite Hd. ring.
    - exists (T + 1). rewrite (fadd_eq X), (fsub_eq X). unfold sh. rewrite Hd, inject_Z_plus. change (inject_Z 1) with 1%Q. ring. }
  destruct H1 as [k Hk]. clearbody c1 d sh.
  destruct (parity_split nn no Nn No) as [[P [h Hh]]|[P [h Hh]]]; rewrite P; cbn [negb].
  - exists (k + h). rewrite Hk. replace nn with (no + (h + h)) by lia. rewrite !inject_Z_plus. field.
  - assert (Ez : (inject_Z nn == inject_Z no + inject_Z h + inject_Z h + 1)%Q).
    { replace nn with (no + h + h + 1) by lia. rewrite !inject_Z_plus. reflexivity. }
    destruct (Qlt_bool d 0).
    + exists (k + h + 1). rewrite (fadd_eq X), (fdiv_eq X), Hk, Ez, !inject_Z_plus. change (inject_Z 1) with 1%Q. field.
    + exists (k + h). rewrite (fadd_eq X), (fdiv_eq X), Hk, Ez, !inject_Z_plus. field.
Qed.

(** Aligned growth by [a] cells at the top and [b] at the bottom. *)
Lemma align_axis_grow cn co r no a b : (0 < r)%Q -> 0 <= no -> 0 <= a -> 0 <= b ->
  (cn == co + (inject_Z a - inject_Z b) * r / 2)%Q ->
  (align_axis cn co r (no + a + b) no ==
   if Z.even (a - b) || (b <=? a) then cn else cn + 2 * r)%Q.
Proof.
  intros Hr No Ha Hb Hc. unfold align_axis, Qfmod.
  set (d := fsub cn co). assert (Hd : (d == (inject_Z a - inject_Z b) * r / 2)%Q).
  { unfold d. rewrite (fsub_eq X), Hc. field. }
  assert (Hq : (d / r == (inject_Z a - inject_Z b) * (1 # 2))%Q) by (rewrite Hd; field; lra).
  assert (r / 2 + r / 2 == r)%Q as H2 by field.
  assert (Hf : (fdiv r (2 # 1) == r / 2)%Q) by apply (fdiv_eq X).
  destruct (parity_split (no + a + b) no ltac:(lia) No) as [[P [h Hh]]|[P [h Hh]]]; rewrite P; cbn [negb].
  - (* even *)
    assert (exists g, a - b = 2 * g) as [g Hg] by (exists (h - b); lia).
    assert (Z.even (a - b) = true) as -> by (rewrite Hg, Z.even_mul; reflexivity). cbn [orb].
    assert (Ed : (inject_Z a - inject_Z b == inject_Z g + inject_Z g)%Q).
    { rewrite <- inject_Z_sub, Hg. replace (2 * g) with (g + g) by lia. now rewrite inject_Z_plus. }
    assert (HT : Qtrunc (d / r) = g).
    { rewrite Hq, Ed. transitivity (Qtrunc (inject_Z g)); [|apply Qtrunc_Z]. apply Qtrunc_comp. field. }
    rewrite HT. assert (Hs : (d - r * inject_Z g == 0)%Q) by (rewrite Hd, Ed; field).
    assert (Qlt_bool (Qabs (d - r * inject_Z g)) (fdiv r (2 # 1)) = true) as ->.
    { apply Qlt_bool_iff. rewrite Hs, Hf. change (Qabs 0) with 0%Q. lra. }
    rewrite (fsub_eq X), Hs. ring.
  - assert (exists g, a - b = 2 * g + 1) as [g Hg] by (exists (h - b); lia).
    assert (Z.even (a - b) = false) as ->.
    { rewrite Hg. rewrite Z.even_add, Z.even_mul. reflexivity. } cbn [orb].
    assert (Ed : (inject_Z a - inject_Z b == inject_Z g + inject_Z g + 1)%Q).
    { rewrite <- inject_Z_sub, Hg. replace (2 * g + 1) with (g + g + 1) by lia. now rewrite !inject_Z_plus. }
    destruct (Z.leb_spec b a) as [Hab|Hab].
    + assert (G0 : 0 <= g) by lia. assert (G0' := inject_Z_nonneg g G0).
      assert (HT : Qtrunc (d / r) = g).
      { rewrite Hq, Ed. apply Qtrunc_unique; lra. }
      rewrite HT. assert (Hs : (d - r * inject_Z g == r / 2)%Q) by (rewrite Hd, Ed; field).
      assert (Qlt_bool (Qabs (d - r * inject_Z g)) (fdiv r (2 # 1)) = false) as ->.
      { apply Qlt_bool_false. rewrite Hs, Hf. rewrite Qabs_pos; lra. }
      assert (Pd : (0 <= d)%Q).
      { assert (0 <= d / r)%Q as Q0 by (rewrite Hq, Ed; lra). apply Qle_div_iff in Q0; auto. lra. }
      assert (Qlt_bool d 0 = false) as -> by (apply Qlt_bool_false; exact Pd).
      rewrite !(fadd_eq X), (fsub_eq X), Hs, Hf. lra.
    + assert (G0 : 0 <= - g - 1) by lia. assert (G0' := inject_Z_nonneg _ G0).
      assert (Ez : (inject_Z (- g - 1) == - inject_Z g - 1)%Q) by (rewrite inject_Z_sub, inject_Z_opp; reflexivity).
      rewrite Ez in G0'.
      assert (HT : Qtrunc (d / r) = g + 1).
      { assert (Qtrunc (- (d / r)) = - g - 1) as K.
        { rewrite Hq, Ed. apply Qtrunc_unique; rewrite ?Ez; lra. }
        rewrite Qtrunc_opp in K. lia. }
      rewrite HT. assert (Hs : (d - r * inject_Z (g + 1) == - (r / 2))%Q).
      { rewrite Hd, Ed, inject_Z_plus. change (inject_Z 1) with 1%Q. field. }
      assert (Qlt_bool (Qabs (d - r * inject_Z (g + 1))) (fdiv r (2 # 1)) = false) as ->.
      { apply Qlt_bool_false. rewrite Hs, Hf. rewrite Qabs_opp, Qabs_pos; lra. }
      assert (Pd : (d < 0)%Q).
      { assert (d / r < 0)%Q as Q0 by (rewrite Hq, Ed; lra). apply Qlt_div_iff in Q0; auto. lra. }
      assert (Qlt_bool d 0 = true) as -> by (apply Qlt_bool_iff; exact Pd).
      rewrite !(fadd_eq X), (fsub_eq X), Hs, Hf. lra.
Qed.

(** ** Aligned maps *)

Lemma aligned1 LA cA LB cB r z i j x : (0 < r)%Q ->
  (cB + LB / 2 == cA + LA / 2 + inject_Z z * r)%Q ->
  contains1 r (centre1 LA cA r i) x -> contains1 r (centre1 LB cB r j) x ->
  (centre1 LA cA r i == centre1 LB cB r j)%Q.
Proof.
  intros Hr HU Hi Hj.
  assert (Ec : (centre1 LB cB r j == centre1 LA cA r (j - z))%Q).
  { unfold centre1. rewrite HU, inject_Z_sub. ring. }
  assert (Hj' : contains1 r (centre1 LA cA r (j - z)) x) by (unfold contains1 in *; rewrite <- Ec; auto).
  rewrite (contains1_unique LA cA r i (j - z) x Hr Hi Hj'). now rewrite Ec.
Qed.

Lemma aligned_cells a b i j x : geo_ok a -> aligned a b ->
  contains (resn a) (centre a i) x -> contains (resn b) (centre b j) x -> veq (centre a i) (centre b j).
Proof.
  intros G [Hr (z0 & z1 & U0 & U1)] [I0 I1] [J0 J1]. rewrite Hr in J0, J1. unfold centre in *. cbn [fst snd] in *.
  rewrite Hr in *. pose proof (g_res _ G). split; cbn [fst snd]; eapply aligned1; eauto.
Qed.

Lemma centre_contains m i : (0 < resn m)%Q -> contains (resn m) (centre m i) (centre m i).
Proof.
  intros Hr. unfold contains, contains1. assert (0 < resn m / 2)%Q by (apply Qlt_shift_div_l; lra).
  split; split; lra.
Qed.

Lemma contains_inside m i p : geo_ok m -> contains (resn m) (centre m i) p -> inside m p.
Proof.
  intros G [C0 C1]. destruct (g_len _ G) as [L0 L1]. cbn [fst snd] in L0, L1. pose proof (g_res _ G) as Hr.
  assert (in_range (size m) (world_index m i)) as [W0 W1].
  { destruct (g_size _ G). unfold world_index, in_range. cbn [fst snd]. split; apply Z.mod_pos_bound; lia. }
  destruct (contains1_inside _ _ _ _ _ _ Hr L0 W0 C0). destruct (contains1_inside _ _ _ _ _ _ Hr L1 W1 C1).
  unfold inside. auto.
Qed.

(** ** extendToInclude *)

Lemma extend_stay m other :
  (fst (upper other) <= fst (upper m))%Q -> (snd (upper other) <= snd (upper m))%Q ->
  (fst (lower m) <= fst (lower other))%Q -> (snd (lower m) <= snd (lower other))%Q ->
  extendToInclude other m = Ret true m.
Proof.
  unfold upper, lower; cbn [fst snd]. intros A B C D. unfold extendToInclude.
  destruct (extend_axis (fst (pos m)) _ _ _) as [[cx Lx] bx] eqn:E0.
  destruct (extend_axis (snd (pos m)) _ _ _) as [[cy Ly] by_] eqn:E1.
  apply extend_axis_ok in E0, E1. destruct E0 as (_ & _ & _ & E0 & _), E1 as (_ & _ & _ & E1 & _).
  rewrite (proj2 E0), (proj2 E1) by auto. reflexivity.
Qed.

Lemma extend_grow m other cx Lx bx cy Ly by_ : geo_ok m -> reg_ok' m -> basics_exist m ->
  extend_axis (fst (pos m)) (fst (len m)) (fst (pos other)) (fst (len other)) = (cx, Lx, bx) ->
  extend_axis (snd (pos m)) (snd (len m)) (snd (pos other)) (snd (len other)) = (cy, Ly, by_) ->
  bx || by_ = true ->
  exists m', extendToInclude other m = Ret true m' /\ geo_ok m' /\ reg_ok' m' /\ aligned m m' /\
    start m' = (0, 0) /\ layers m' = layers m /\ basic m' = basic m /\ frame m' = frame m /\ stamp m' = stamp m /\
    (inject_Z (fst (size m')) - (1#2) <= Lx / resn m < inject_Z (fst (size m')) + (1#2))%Q /\
    (inject_Z (snd (size m')) - (1#2) <= Ly / resn m < inject_Z (snd (size m')) + (1#2))%Q /\
    pos m' = (align_axis cx (fst (pos m)) (resn m) (fst (size m')) (fst (size m)),
              align_axis cy (snd (pos m)) (resn m) (snd (size m')) (snd (size m))) /\
    (forall l q v, inside m' q ->
       (world_value m' l q v <-> world_value m l q v \/ (~ inside m q /\ has_layer m l /\ v = unknown))).
Proof.
  intros G R B E0 E1 Hb. unfold extendToInclude. rewrite E0, E1, Hb. cbn [negb].
  apply extend_axis_ok in E0, E1. destruct E0 as (_ & _ & _ & _ & M0), E1 as (_ & _ & _ & _ & M1).
  pose proof (g_res _ G) as Hr. destruct (g_len _ G) as [L0 L1]; cbn [fst snd] in L0, L1. destruct (g_size _ G) as [Z0 Z1].
  assert (Pos : forall k : Z, 0 < k -> (0 < inject_Z k * resn m)%Q).
  { intros k Hk. apply Qmult_lt_0_compat; auto. change 0%Q with (inject_Z 0). now rewrite <- Zlt_Qlt. }
  pose proof (Pos _ Z0) as P0. pose proof (Pos _ Z1) as P1. rewrite <- L0 in P0. rewrite <- L1 in P1.
  destruct (setGeometry_ok X (Lx, Ly) (resn m) (cx, cy) m (proj1 R)) as
    (m1 & H1 & R1 & S0 & S1 & N0 & N1 & _ & _ & T1 & T2 & T3 & T4 & T5 & T6 & T7 & T8 & T9); cbn [fst snd]; try lra.
  cbn [fst snd] in S0, S1.
  unfold bind at 1. rewrite H1.
  assert (Big : forall n n' L L' : Q, (L == n * resn m)%Q -> (L <= L')%Q -> (L' / resn m < n' + (1#2))%Q -> (n < n' + (1#2))%Q).
  { intros n n' L L' A1 A2 A3. apply Qlt_div_iff in A3; auto. assert (n * resn m < (n' + (1 # 2)) * resn m)%Q as K by lra.
    apply Qmult_lt_r in K; auto. }
  assert (Z0' : 0 < fst (size m1)).
  { pose proof (Big _ _ _ _ L0 M0 (proj2 S0)) as K. assert (inject_Z (fst (size m)) < inject_Z (fst (size m1) + 1))%Q by (injz; lra).
    rewrite <- Zlt_Qlt in H. lia. }
  assert (Z1' : 0 < snd (size m1)).
  { pose proof (Big _ _ _ _ L1 M1 (proj2 S1)) as K. assert (inject_Z (snd (size m)) < inject_Z (snd (size m1) + 1))%Q by (injz; lra).
    rewrite <- Zlt_Qlt in H. lia. }
  unfold bind at 1. cbn [modify].
  set (m2 := set_pos m1 _). unfold bind at 1.
  assert (G2 : geo_ok m2).
  { constructor; cbn [m2 resn size len start set_pos].
    - rewrite T1. auto.
    - auto.
    - rewrite T1. split; auto.
    - rewrite T3. unfold in_range; cbn; lia. }
  assert (R2 : reg_ok' m2).
  { split; [|cbn [size m2 set_pos]; lia]. destruct R1 as [A1 A2 A3 A4]. constructor; auto. }
  assert (Hh : forall l, has_layer m1 l <-> has_layer m l).
  { intros l. rewrite <- !exists_has, T8. tauto. }
  assert (B2 : basics_exist m2).
  { intros l Hl. change (has_layer m1 l). apply Hh. apply B. change (In l (basic m1)) in Hl. now rewrite T5 in Hl. }
  destruct (copy_cells m2 m (g_start _ G2)) as (m' & Hm & C & A); try exact R2; try exact B2; try apply R; try exact T4.
  { intros i Hi. destruct (getPosition_centre X m2 i G2 Hi) as (p & Hp & _). exists p. split; [exact Hp|].
    intros K. apply (getIndex_contains X m p G). now apply (isInside_iff X). }
  { intros l i Hl Hi. apply CoreProofs2.at_value. apply (T9 l i); auto. apply exists_has. apply akeys_has; [apply R|].
    change (In l (layers m1)) in Hl. now rewrite T4 in Hl. }
  rewrite Hm.
  exists m'. split; [reflexivity|].
  assert (MM : same_meta m2 m') by apply C.
  destruct MM as (Q1 & Q2 & Q3 & Q4 & Q5 & Q6 & Q7 & Q8).
  assert (Ez : size m' = size m1) by (rewrite <- Q7; reflexivity).
  assert (G' : geo_ok m').
  { destruct G2 as [A1 A2 A3 A4]. constructor; rewrite <- ?Q4, <- ?Q5, <- ?Q7, <- ?Q8; auto. }
  assert (Al : aligned m m').
  { split; [rewrite <- Q5; exact T1|].
    unfold upper. cbn [fst snd]. rewrite <- Q4, <- Q6. cbn [m2 pos len set_pos fst snd]. rewrite T1, T2. cbn [fst snd].
    destruct (align_axis_ok cx (fst (pos m)) (resn m) (fst (size m1)) (fst (size m)) Hr ltac:(lia) ltac:(lia)) as [k0 K0].
    destruct (align_axis_ok cy (snd (pos m)) (resn m) (snd (size m1)) (snd (size m)) Hr ltac:(lia) ltac:(lia)) as [k1 K1].
    exists k0, k1. rewrite N0, N1, L0, L1. auto. }
  split; auto. split; [apply C|]. split; [exact Al|]. split; [now rewrite <- Q8|].
  split; [rewrite <- T4; apply C|]. split; [now rewrite <- Q3|]. split; [now rewrite <- Q1|]. split; [now rewrite <- Q2|].
  split; [now rewrite Ez|]. split; [now rewrite Ez|].
  split. { rewrite <- Q6, Ez. cbn [m2 pos set_pos]. rewrite T1, T2. reflexivity. }
  intros l q v Hq.
  destruct (getIndex_contains X m' q G' Hq) as [Ri Ci]. set (i := snd (getIndex m' q)) in *.
  assert (Ri2 : in_range (size m2) i) by (change (size m2) with (size m1); now rewrite <- Ez).
  destruct (getPosition_centre X m2 i G2 Ri2) as (p & Hp & Ep).
  rewrite <- (centre_meta m2 m' i) in Ep by apply C.
  assert (W : world_value m' l q v <-> at_ m' l i = Ok v).
  { rewrite CoreProofs2.at_value. split.
    - intros (k & d & Rk & D & V & Ck). assert (k = i) as -> by exact (covering_unique m' k i q G' Rk Ri Ck Ci). exists d; auto.
    - intros (d & D & V). exists i, d. auto. }
  rewrite W, A by auto. unfold copied. rewrite Hp.
  assert (Un : In l (layers m) -> at_ m2 l i = Ok unknown).
  { intros Hl. apply CoreProofs2.at_value. apply (T9 l i); auto. apply exists_has. apply akeys_has; auto; apply R. }
  assert (Hin : In l (layers m) <-> has_layer m l). { rewrite <- exists_has. apply akeys_has. apply R. }
  assert (Wm : forall j, in_range (size m) j -> contains (resn m) (centre m j) q -> 
     veq p (centre m j) /\ inside m p /\ snd (getIndex m p) = j).
  { intros j Rj Cj. assert (veq p (centre m j)) as V.
    { pose proof (aligned_cells m m' j i q G Al Cj Ci) as [V0 V1]. destruct Ep as [E0 E1]. 
      split; [rewrite E0|rewrite E1]; symmetry; auto. }
    assert (Cp : contains (resn m) (centre m j) p).
    { eapply veq_contains; [exact V|]. now apply centre_contains. }
    assert (inside m p) as Ip by (eapply contains_inside; eauto).
    split; auto. split; auto. destruct (getIndex_contains X m p G Ip) as [Rp Cp'].
    exact (covering_unique m _ j p G Rp Rj Cp' Cp). }
  destruct (inside_dec X m q) as [Iq|Nq].
  - destruct (getIndex_contains X m q G Iq) as [Rj Cj]. set (j := snd (getIndex m q)) in *.
    destruct (Wm j Rj Cj) as (V & Ip & Ei). rewrite (proj2 (isInside_iff X _ _) Ip), Ei. cbn [andb].
    assert (Wo : world_value m l q v <-> at_ m l j = Ok v).
    { rewrite CoreProofs2.at_value. split.
      - intros (k & d & Rk & D & Vk & Ck). assert (k = j) as -> by exact (covering_unique m k j q G Rk Rj Ck Cj). exists d; auto.
      - intros (d & D & Vk). exists j, d. auto. }
    rewrite Wo. destruct (smem l (layers m)) eqn:Ks; [tauto|]. apply smem_false in Ks. rewrite Hin in Ks.
    assert (at_ m l j = Throw OutOfRange) as ->.
    { unfold at_. destruct (aget (data m) l) as [d|] eqn:D; auto. exfalso. apply Ks. now exists d. }
    assert (at_ m2 l i = Throw OutOfRange) as ->.
    { unfold at_. destruct (aget (data m2) l) as [d|] eqn:D; auto. exfalso. apply Ks. apply Hh. now exists d. }
    split; [discriminate|]. intros [?|[? _]]; [discriminate|contradiction].
  - assert (Np : ~ inside m p).
    { intros Ip. apply Nq. destruct (getIndex_contains X m p G Ip) as [Rj Cj].
      assert (Cp : contains (resn m') (centre m' i) p).
      { eapply veq_contains; [exact Ep|]. apply centre_contains. apply (g_res _ G'). }
      pose proof (aligned_cells m m' _ i p G Al Cj Cp) as V.
      destruct Al as [Er _]. rewrite Er in Ci. eapply contains_inside; [exact G|].
      destruct V as [V0 V1]. destruct Ci as [C0 C1]. unfold contains, contains1 in *.
      rewrite V0, V1. split; [exact C0|exact C1]. }
    assert (isInside m p = false) as ->.
    { destruct (isInside m p) eqn:K; auto. apply (isInside_iff X) in K. contradiction. }
    cbn [andb]. split.
    + intros Av. right. split; auto. assert (has_layer m l) as Hl.
      { apply Hh. unfold at_ in Av. destruct (aget (data m2) l) as [d|] eqn:D; [|discriminate]. now exists d. }
      split; auto. rewrite Un in Av by now apply Hin. congruence.
    + intros [Wv|(_ & Hl & ->)]; [|apply Un; now apply Hin].
      exfalso. apply Nq. destruct Wv as (k & d & Rk & _ & _ & Ck). eapply contains_inside; eauto.
Qed.


Lemma extend_final m other : geo_ok m -> reg_ok' m -> basics_exist m ->
  ((fst (upper other) <= fst (upper m))%Q -> (snd (upper other) <= snd (upper m))%Q ->
   (fst (lower m) <= fst (lower other))%Q -> (snd (lower m) <= snd (lower other))%Q ->
   extendToInclude other m = Ret true m) /\
  exists m', extendToInclude other m = Ret true m' /\ geo_ok m' /\ reg_ok' m' /\ aligned m m' /\
    layers m' = layers m /\ basic m' = basic m /\ frame m' = frame m /\ stamp m' = stamp m /\
    (forall l q v, inside m' q ->
       (world_value m' l q v <-> world_value m l q v \/ (~ inside m q /\ has_layer m l /\ v = unknown))).
Proof.
  intros G R B. split; [apply extend_stay|].
  destruct (extend_axis (fst (pos m)) (fst (len m)) (fst (pos other)) (fst (len other))) as [[cx Lx] bx] eqn:E0.
  destruct (extend_axis (snd (pos m)) (snd (len m)) (snd (pos other)) (snd (len other))) as [[cy Ly] by_] eqn:E1.
  destruct (bx || by_) eqn:K.
  - destruct (extend_grow m other cx Lx bx cy Ly by_ G R B E0 E1 K) as
      (m' & H & G' & R' & Al & _ & A1 & A2 & A3 & A4 & _ & _ & _ & W). exists m'. auto 10.
  - exists m. assert (H : extendToInclude other m = Ret true m).
    { unfold extendToInclude. rewrite E0, E1, K. reflexivity. }
    split; auto. split; auto. split; auto. split.
    { split; auto. exists 0, 0. change (inject_Z 0) with 0%Q. split; ring. }
    do 4 (split; [reflexivity|]). intros l q v Hq. tauto.
Qed.

Lemma grow_axis c L n co Lo r a b c' L' bb n' : (0 < r)%Q -> 0 < n -> (L == inject_Z n * r)%Q ->
  extend_axis c L co Lo = (c', L', bb) ->
  grows_up (c + L / 2) (co + Lo / 2) r a -> grows_down (c - L / 2) (co - Lo / 2) r b ->
  (inject_Z n' - (1#2) <= L' / r < inject_Z n' + (1#2))%Q ->
  let off := if Z.even (a - b) || (b <=? a) then 0%Q else (2 * r)%Q in
  (align_axis c' c r n' n + inject_Z n' * r / 2 == c + L / 2 + inject_Z a * r + off)%Q /\
  (align_axis c' c r n' n - inject_Z n' * r / 2 == c - L / 2 - inject_Z b * r + off)%Q.
Proof.
  intros Hr Hn HL HE Ha Hb Hs off.
  apply extend_axis_ok in HE. destruct HE as (T & B & _).
  assert (Ta : (mx (c + L / 2) (co + Lo / 2) == c + L / 2 + inject_Z a * r)%Q /\ 0 <= a).
  { unfold mx. destruct Ha as [[-> Ha]|[Ha Hx]]; destruct (Qlt_le_dec (c + L / 2) (co + Lo / 2)); split; try lia; try lra.
    - change (inject_Z 0) with 0%Q. ring.
    - exfalso. pose proof (inject_Z_pos a Ha) as K. pose proof (Qmult_lt_0_compat _ _ K Hr). lra. }
  assert (Tb : (mn (c - L / 2) (co - Lo / 2) == c - L / 2 - inject_Z b * r)%Q /\ 0 <= b).
  { unfold mn. destruct Hb as [[-> Hb]|[Hb Hx]]; destruct (Qlt_le_dec (co - Lo / 2) (c - L / 2)); split; try lia; try lra.
    - change (inject_Z 0) with 0%Q. ring.
    - exfalso. pose proof (inject_Z_pos b Hb) as K. pose proof (Qmult_lt_0_compat _ _ K Hr). lra. }
  destruct Ta as [Ta Na], Tb as [Tb Nb]. rewrite Ta in T. rewrite Tb in B.
  assert (HL2 : (L / 2 == inject_Z n * r / 2)%Q) by (rewrite HL; reflexivity).
  assert (L' == (L' / 2) + (L' / 2))%Q as HL'2 by field.
  assert (EL : (L' == inject_Z (n + a + b) * r)%Q).
  { rewrite !inject_Z_plus. transitivity ((c' + L' / 2) - (c' - L' / 2))%Q; [field|]. rewrite T, B, HL2. field. }
  assert (Ec : (c' == c + (inject_Z a - inject_Z b) * r / 2)%Q).
  { transitivity (((c' + L' / 2) + (c' - L' / 2)) / 2)%Q; [field|]. rewrite T, B. field. }
  assert (n' = n + a + b) as ->.
  { rewrite EL in Hs. assert (inject_Z (n + a + b) * r / r == inject_Z (n + a + b))%Q as Q by (field; lra). rewrite Q in Hs.
    destruct Hs as [A1 A2].
    assert (inject_Z n' < inject_Z (n + a + b + 1))%Q as A' by (rewrite (inject_Z_plus (n + a + b)); change (inject_Z 1) with 1%Q; lra).
    assert (inject_Z (n + a + b) < inject_Z (n' + 1))%Q as B' by (rewrite (inject_Z_plus n'); change (inject_Z 1) with 1%Q; lra).
    rewrite <- Zlt_Qlt in A', B'. lia. }
  pose proof (align_axis_grow c' c r n a b Hr ltac:(lia) Na Nb Ec) as Al. rewrite Al.
  unfold off. destruct (Z.even (a - b) || (b <=? a)); rewrite Ec, HL2, !inject_Z_plus; split; field.
Qed.

Lemma extend_aligned_final m other a0 a1 b0 b1 : geo_ok m -> reg_ok' m -> basics_exist m ->
  grows_up (fst (upper m)) (fst (upper other)) (resn m) a0 -> grows_down (fst (lower m)) (fst (lower other)) (resn m) b0 ->
  grows_up (snd (upper m)) (snd (upper other)) (resn m) a1 -> grows_down (snd (lower m)) (snd (lower other)) (resn m) b1 ->
  let off a b := if Z.even (a - b) || (b <=? a) then 0%Q else (2 * resn m)%Q in
  exists m', extendToInclude other m = Ret true m' /\
    (fst (upper m') == fst (upper m) + inject_Z a0 * resn m + off a0 b0)%Q /\
    (fst (lower m') == fst (lower m) - inject_Z b0 * resn m + off a0 b0)%Q /\
    (snd (upper m') == snd (upper m) + inject_Z a1 * resn m + off a1 b1)%Q /\
    (snd (lower m') == snd (lower m) - inject_Z b1 * resn m + off a1 b1)%Q.
Proof.
  intros G R B A0 B0 A1 B1 off.
  destruct (extend_axis (fst (pos m)) (fst (len m)) (fst (pos other)) (fst (len other))) as [[cx Lx] bx] eqn:E0.
  destruct (extend_axis (snd (pos m)) (snd (len m)) (snd (pos other)) (snd (len other))) as [[cy Ly] by_] eqn:E1.
  pose proof (g_res _ G) as Hr. destruct (g_len _ G) as [L0 L1]; cbn [fst snd] in L0, L1. destruct (g_size _ G) as [Z0 Z1].
  destruct (bx || by_) eqn:K.
  - destruct (extend_grow m other cx Lx bx cy Ly by_ G R B E0 E1 K) as
      (m' & H & G' & R' & Al & _ & _ & _ & _ & _ & S0 & S1 & P & _). exists m'. split; auto.
    destruct (grow_axis _ _ _ _ _ _ a0 b0 _ _ _ _ Hr Z0 L0 E0 A0 B0 S0) as [U0 D0].
    destruct (grow_axis _ _ _ _ _ _ a1 b1 _ _ _ _ Hr Z1 L1 E1 A1 B1 S1) as [U1 D1].
    destruct (g_len _ G') as [L0' L1']; cbn [fst snd] in L0', L1'. destruct Al as [Er _].
    unfold upper at 1 3, lower at 1 3. cbn [fst snd]. rewrite L0', L1', Er, P. cbn [fst snd]. auto.
  - exists m. split. { unfold extendToInclude. rewrite E0, E1, K. reflexivity. }
    apply orb_false_iff in K. destruct K as [-> ->].
    apply extend_axis_ok in E0, E1. destruct E0 as (_ & _ & _ & E0 & _), E1 as (_ & _ & _ & E1 & _).
    apply proj1 in E0, E1. specialize (E0 eq_refl). specialize (E1 eq_refl).
    assert (Zr : forall x y a, grows_up x y (resn m) a -> (y <= x)%Q -> a = 0).
    { intros x y a [[? _]|[Ha Hx]] Hy; auto. exfalso.
      pose proof (inject_Z_pos a Ha) as K. pose proof (Qmult_lt_0_compat _ _ K Hr). lra. }
    assert (Zd : forall x y a, grows_down x y (resn m) a -> (x <= y)%Q -> a = 0).
    { intros x y a [[? _]|[Ha Hx]] Hy; auto. exfalso.
      pose proof (inject_Z_pos a Ha) as K. pose proof (Qmult_lt_0_compat _ _ K Hr). lra. }
    unfold upper, lower in A0, A1, B0, B1. cbn [fst snd] in A0, A1, B0, B1.
    rewrite (Zr _ _ _ A0), (Zr _ _ _ A1), (Zd _ _ _ B0), (Zd _ _ _ B1) by tauto.
    unfold off. cbn [Z.sub Z.even orb Z.opp Z.add]. change (inject_Z 0) with 0%Q. repeat split; ring.
Qed.

Lemma extend_includes_final m other a0 a1 b0 b1 : geo_ok m -> reg_ok' m -> basics_exist m ->
  grows_up (fst (upper m)) (fst (upper other)) (resn m) a0 -> grows_down (fst (lower m)) (fst (lower other)) (resn m) b0 ->
  grows_up (snd (upper m)) (snd (upper other)) (resn m) a1 -> grows_down (snd (lower m)) (snd (lower other)) (resn m) b1 ->
  (Z.Even (a0 - b0) \/ b0 <= a0) -> (Z.Even (a1 - b1) \/ b1 <= a1) ->
  exists m', extendToInclude other m = Ret true m' /\
    forall q, inside m q \/ inside other q -> inside m' q.
Proof.
  intros G R B A0 B0 A1 B1 P0 P1. pose proof (g_res _ G) as Hr.
  destruct (extend_aligned_final m other a0 a1 b0 b1 G R B A0 B0 A1 B1) as (m' & H & U0 & D0 & U1 & D1).
  assert (K : forall a b, Z.Even (a - b) \/ b <= a -> Z.even (a - b) || (b <=? a) = true).
  { intros a b [P|P]; apply orb_true_iff; [left; now apply Z.even_spec|right; now apply Z.leb_le]. }
  rewrite K in U0, D0 by auto. rewrite K in U1, D1 by auto.
  exists m'. split; auto. intros q. rewrite !inside_corners, U0, D0, U1, D1.
  assert (Zr : forall x y a, grows_up x y (resn m) a -> (x <= x + inject_Z a * resn m)%Q /\ (y <= x + inject_Z a * resn m)%Q).
  { intros x y a [[-> Hx]|[Ha Hx]]; [change (inject_Z 0) with 0%Q; split; lra|].
    pose proof (inject_Z_pos a Ha) as K'. pose proof (Qmult_lt_0_compat _ _ K' Hr). split; lra. }
  assert (Zd : forall x y a, grows_down x y (resn m) a -> (x - inject_Z a * resn m <= x)%Q /\ (x - inject_Z a * resn m <= y)%Q).
  { intros x y a [[-> Hx]|[Ha Hx]]; [change (inject_Z 0) with 0%Q; split; lra|].
    pose proof (inject_Z_pos a Ha) as K'. pose proof (Qmult_lt_0_compat _ _ K' Hr). split; lra. }
  apply Zr in A0, A1. apply Zd in B0, B1. intros [[I0 I1]|[I0 I1]]; split; split; lra.
Qed.

(** Growth at the low end exceeding that at the high end by an odd number of cells. *)
Lemma extend_excludes_final m other a0 a1 b0 b1 : geo_ok m -> reg_ok' m -> basics_exist m -> geo_ok other ->
  grows_up (fst (upper m)) (fst (upper other)) (resn m) a0 -> grows_down (fst (lower m)) (fst (lower other)) (resn m) b0 ->
  grows_up (snd (upper m)) (snd (upper other)) (resn m) a1 -> grows_down (snd (lower m)) (snd (lower other)) (resn m) b1 ->
  (Z.Odd (a0 - b0) /\ a0 < b0) \/ (Z.Odd (a1 - b1) /\ a1 < b1) ->
  exists m' q, extendToInclude other m = Ret true m' /\ inside other q /\ ~ inside m' q.
Proof.
  intros G R B Go A0 B0 A1 B1 P. pose proof (g_res _ G) as Hr.
  destruct (extend_aligned_final m other a0 a1 b0 b1 G R B A0 B0 A1 B1) as (m' & H & U0 & D0 & U1 & D1).
  assert (K : forall a b, Z.Odd (a - b) /\ a < b -> Z.even (a - b) || (b <=? a) = false).
  { intros a b [Q1 Q2]. apply orb_false_iff. rewrite <- Z.negb_odd. rewrite (proj2 (Z.odd_spec _) Q1). split; auto. lia. }
  assert (Pa : forall x y a, grows_up x y (resn m) a -> 0 <= a) by (intros x y a [[-> _]|[? _]]; lia).
  apply Pa in A0, A1.
  destruct (lower_upper other Go) as [Lo0 Lo1]. destruct (g_size _ Go) as [Z0 Z1]. pose proof (g_res _ Go) as Hro.
  assert (P0 := Qmult_lt_0_compat _ _ (inject_Z_pos _ Z0) Hro).
  assert (P1 := Qmult_lt_0_compat _ _ (inject_Z_pos _ Z1) Hro).
  set (pick := fun lo up : Q => if Qlt_le_dec up (lo + resn m) then up else (lo + resn m)%Q).
  assert (Hp : forall lo up, (lo < up -> lo < pick lo up /\ pick lo up <= up /\ pick lo up <= lo + resn m)%Q).
  { intros lo up L. unfold pick. destruct (Qlt_le_dec up (lo + resn m)); lra. }
  destruct P as [P|P]; specialize (K _ _ P).
  - rewrite K in D0. destruct B0 as [[B0 _]|[_ B0]]; [lia|].
    destruct (Hp (fst (lower other)) (fst (upper other)) ltac:(lra)) as (K1 & K2 & K3).
    exists m', (pick (fst (lower other)) (fst (upper other)), snd (upper other)). split; auto.
    rewrite !inside_corners. cbn [fst snd]. split; [split; split; lra|]. intros [[C _] _]. lra.
  - rewrite K in D1. destruct B1 as [[B1 _]|[_ B1]]; [lia|].
    destruct (Hp (snd (lower other)) (snd (upper other)) ltac:(lra)) as (K1 & K2 & K3).
    exists m', (fst (upper other), pick (snd (lower other)) (snd (upper other))). split; auto.
    rewrite !inside_corners. cbn [fst snd]. split; [split; split; lra|]. intros [_ [C _]]. lra.
Qed.

End Extend.

Section Merge.
Context {E : Env} (X : Exact E).

Lemma add_data_extended_final m other ow ca ls :
  geo_ok m -> reg_ok' m -> basics_exist m -> geo_ok other -> reg_ok other ->
  let sel := if ca : bool then layers other else ls in
  (forall l, In l sel -> has_layer other l) ->
  exists m1 m', extendToInclude other m = Ret true m1 /\
    addDataFrom other true ow ca ls m = Ret true m' /\ same_meta m1 m' /\
    (forall l, has_layer m' l <-> has_layer m1 l \/ In l sel) /\
    (forall l i v, has_layer m' l -> in_range (size m1) i ->
       let takes w := In l sel /\ (ow = true \/ ~ valid_cell m1 i) /\ offers other m1 l i w in
       (value_at m' l i v <-> takes v \/ (~ (exists w, takes w) /\ value_or_unknown m1 l i v))).
Proof.
  intros G R B Go Ro sel HO.
  destruct (proj2 (extend_final X m other G R B)) as (m1 & H & G1 & R1 & _ & L1 & B1 & _).
  assert (Hh : forall l, has_layer m1 l <-> has_layer m l).
  { intros l. rewrite <- !exists_has, <- !akeys_has by (apply R || apply R1). now rewrite L1. }
  destruct (add_data_final X m1 other ow ca ls G1 R1 Go Ro HO) as (m' & H' & A & M & _ & C & D).
  { intros b Hb. left. apply Hh. apply B. now rewrite <- B1. }
  exists m1, m'. split; auto. split; [|auto].
  unfold addDataFrom in *. unfold bind at 1. rewrite H. exact H'.
Qed.

Lemma add_data_protected m other ca ls i :
  geo_ok m -> reg_ok' m -> geo_ok other -> reg_ok other ->
  let sel := if ca : bool then layers other else ls in
  (forall l, In l sel -> has_layer other l) -> (forall b, In b (basic m) -> has_layer m b \/ In b sel) ->
  in_range (size m) i -> valid_cell m i ->
  exists m', addDataFrom other false false ca ls m = Ret true m' /\
    forall l v, has_layer m l -> (value_at m' l i v <-> value_at m l i v).
Proof.
  intros G R Go Ro sel HO HB Hi V.
  destruct (add_data_final X m other false ca ls G R Go Ro HO HB) as (m' & H' & A & M & _ & C & D).
  exists m'. split; auto. intros l v Hl. specialize (D l i v (proj2 (C l) (or_introl Hl)) Hi). cbn zeta in D. rewrite D.
  split.
  - intros [(_ & [K|K] & _)|[_ [K|[K _]]]]; auto; try discriminate; contradiction.
  - intros K. right. split; [intros (w & _ & [Kw|Kw] & _); [discriminate|contradiction]|now left].
Qed.

End Merge.
