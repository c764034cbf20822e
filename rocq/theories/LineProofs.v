(** Proofs about the line iterator. *)
From Coq Require Import ZArith QArith Qround Qabs List Bool Lia Lqa.
From Verif Require Import Base Mat GridMapMath GridIter CostMap Iterators Spec BaseLemmas GeoLemmas IterProofs.
Import ListNotations.
Open Scope Z_scope.

(* ------------------------------------------------------------------ *)
(** ** Between indices *)

(** Minor axis offset after k steps. *)
Definition minor (D A k : Z) : Z := (Z.quot D 2 + k * A) / D.

Lemma minor_bounds D A k : 0 < D -> 0 <= A <= D -> 0 <= k <= D ->
  2 * Z.abs (D * minor D A k - k * A) <= D /\ 0 <= minor D A k <= A.
Proof.
  intros HD HA Hk. unfold minor. rewrite Z.quot_div_nonneg by lia.
  assert (H2 := Z.div_mod D 2 ltac:(lia)). assert (H2' := Z.mod_pos_bound D 2 ltac:(lia)).
  set (h := D / 2) in *. clearbody h.
  assert (HM := Z.div_mod (h + k * A) D ltac:(lia)). assert (HM' := Z.mod_pos_bound (h + k * A) D ltac:(lia)).
  set (q := (h + k * A) / D) in *. set (r := (h + k * A) mod D) in *. clearbody q r.
  split; [lia|]. split; nia.
Qed.

Lemma minor_step D A k : 0 < D -> 0 <= A <= D ->
  let num := (Z.quot D 2 + k * A) mod D in
  (D <=? num + A = true -> minor D A (k + 1) = minor D A k + 1 /\ (Z.quot D 2 + (k + 1) * A) mod D = num + A - D) /\
  (D <=? num + A = false -> minor D A (k + 1) = minor D A k /\ (Z.quot D 2 + (k + 1) * A) mod D = num + A).
Proof.
  intros HD HA. cbv zeta. unfold minor. set (h := Z.quot D 2). clearbody h.
  assert (HM := Z.div_mod (h + k * A) D ltac:(lia)). assert (HM' := Z.mod_pos_bound (h + k * A) D ltac:(lia)).
  set (num := (h + k * A) mod D) in *. set (q := (h + k * A) / D) in *. clearbody q num.
  split; intros K.
  - apply Z.leb_le in K. split.
    + symmetry. apply (Z.div_unique_pos _ _ _ (num + A - D)); nia.
    + symmetry. apply (Z.mod_unique_pos _ _ (q + 1)); nia.
  - apply Z.leb_gt in K. split.
    + symmetry. apply (Z.div_unique_pos _ _ _ (num + A)); nia.
    + symmetry. apply (Z.mod_unique_pos _ _ q); nia.
Qed.

(** The k-th cell. *)
Definition line_cell (a b : idx) (k : Z) : idx :=
  let dx := Z.abs (fst b - fst a) in
  let dy := Z.abs (snd b - snd a) in
  let sx := if fst a <=? fst b then 1 else -1 in
  let sy := if snd a <=? snd b then 1 else -1 in
  if dy <=? dx then (fst a + sx * k, snd a + sy * minor dx dy k)
  else (fst a + sx * minor dy dx k, snd a + sy * k).

Definition line_len (a b : idx) : Z := Z.max (Z.abs (fst b - fst a)) (Z.abs (snd b - snd a)).

Definition line_state (a b : idx) (k : Z) : line_iter :=
  let it := line_new a b in
  LineIter (line_cell a b k) k (li_ncells it) (li_inc1 it) (li_inc2 it) (li_den it)
    ((Z.quot (li_den it) 2 + k * li_add it) mod li_den it) (li_add it).

Lemma line_run_cells a b : line_visits a b = Ok (map (line_cell a b) (zseq (line_len a b + 1))).
Proof.
  unfold line_visits, line_run, line_len.
  set (dx := Z.abs (fst b - fst a)). set (dy := Z.abs (snd b - snd a)).
  destruct (Z.eq_dec (Z.max dx dy) 0) as [Z0|NZ].
  - assert (dx = 0) by lia. assert (dy = 0) by lia.
    assert (a = b) by (destruct a, b; cbn [fst snd] in *; f_equal; lia). subst b.
    rewrite Z0. unfold line_new, line_cell, zseq. rewrite !Z.sub_diag, !Z.leb_refl. destruct a as [a0 a1]. cbn.
    change (Pos.to_nat 2) with 2%nat. change (Pos.to_nat 1) with 1%nat. cbn. now rewrite !Z.add_0_r.
  - assert (S0 : line_new a b = line_state a b 0).
    { unfold line_state, line_new, line_cell. fold dx dy.
      destruct (dy <=? dx) eqn:K; cbn [li_ncells li_inc1 li_inc2 li_den li_add].
      - apply Z.leb_le in K. assert (dx > 0) by lia. 
        assert (M : minor dx dy 0 = 0).
        { destruct (minor_bounds dx dy 0); try lia. unfold minor. rewrite Z.mul_0_l, Z.add_0_r. apply Z.div_small.
          rewrite Z.quot_div_nonneg by lia. split; [apply Z.div_pos; lia|]. apply Z.div_lt; lia. }
        rewrite M. f_equal; [destruct a; cbn; f_equal; lia|]. rewrite Z.mul_0_l, Z.add_0_r. symmetry. apply Z.mod_small.
        rewrite Z.quot_div_nonneg by lia. split; [apply Z.div_pos; lia|]. apply Z.div_lt; lia.
      - apply Z.leb_gt in K. 
        assert (M : minor dy dx 0 = 0).
        { unfold minor. rewrite Z.mul_0_l, Z.add_0_r. apply Z.div_small.
          rewrite Z.quot_div_nonneg by lia. split; [apply Z.div_pos; lia|]. apply Z.div_lt; lia. }
        rewrite M. f_equal; [destruct a; cbn; f_equal; lia|]. rewrite Z.mul_0_l, Z.add_0_r. symmetry. apply Z.mod_small.
        rewrite Z.quot_div_nonneg by lia. split; [apply Z.div_pos; lia|]. apply Z.div_lt; lia. }
    assert (NC : li_ncells (line_new a b) = Z.max dx dy + 1).
    { unfold line_new. fold dx dy. destruct (dy <=? dx) eqn:K; cbn; lia. }
    rewrite NC, S0.
    rewrite (run_seq line_past li_index line_next (line_state a b) (Z.to_nat (Z.max dx dy + 1))); try lia.
    + reflexivity.
    + intros k Hk. unfold line_past, line_state. cbn [li_ncells li_icell]. rewrite NC. apply Z.leb_gt. lia.
    + intros k Hk1 Hk2. unfold line_next, line_state, line_cell, line_new. fold dx dy.
      destruct (dy <=? dx) eqn:K; cbn [li_ncells li_inc1 li_inc2 li_den li_add li_num li_index li_icell].
      * apply Z.leb_le in K. destruct (minor_step dx dy k) as [M1 M2]; try lia.
        destruct (dx <=? (Z.quot dx 2 + k * dy) mod dx + dy) eqn:K2.
        -- destruct (M1 eq_refl) as [-> ->]. cbn [fst snd]. f_equal. f_equal; lia.
        -- destruct (M2 eq_refl) as [-> ->]. cbn [fst snd]. f_equal. f_equal; lia.
      * apply Z.leb_gt in K. destruct (minor_step dy dx k) as [M1 M2]; try lia.
        destruct (dy <=? (Z.quot dy 2 + k * dx) mod dy + dx) eqn:K2.
        -- destruct (M1 eq_refl) as [-> ->]. cbn [fst snd]. f_equal. f_equal; lia.
        -- destruct (M2 eq_refl) as [-> ->]. cbn [fst snd]. f_equal. f_equal; lia.
    + unfold line_past, line_next, line_state. cbn [li_ncells li_icell]. rewrite NC. apply Z.leb_le. lia.
Qed.

Lemma nth_zseq_aux N : forall a k, (k < N)%nat -> nth_error (zseq_aux a N) k = Some (a + Z.of_nat k).
Proof.
  induction N as [|N IH]; intros a k Hk; [lia|]. destruct k as [|k]; cbn [zseq_aux nth_error].
  - f_equal. lia.
  - rewrite IH by lia. f_equal. lia.
Qed.

Lemma line_nth a b cells : line_visits a b = Ok cells ->
  List.length cells = Z.to_nat (line_len a b + 1) /\
  forall k c, nth_error cells k = Some c -> Z.of_nat k <= line_len a b /\ c = line_cell a b (Z.of_nat k).
Proof.
  rewrite line_run_cells. intros H. injection H as <-. split.
  - rewrite map_length. unfold zseq. clear. generalize (Z.to_nat (line_len a b + 1)) as n. generalize 0.
    intros z n. revert z. induction n; cbn; intros; auto.
  - intros k c Hk. assert (L : (k < Z.to_nat (line_len a b + 1))%nat).
    { assert (Hl : (k < List.length (map (line_cell a b) (zseq (line_len a b + 1))))%nat) by (apply nth_error_Some; congruence).
      rewrite map_length in Hl. unfold zseq in Hl.
      assert (forall n z, List.length (zseq_aux z n) = n) as E by (clear; induction n; cbn; intros; auto). now rewrite E in Hl. }
    rewrite nth_error_map in Hk. unfold zseq in Hk. rewrite nth_zseq_aux in Hk by auto. cbn in Hk. injection Hk as <-.
    split; [lia|]. reflexivity.
Qed.

Lemma line_cell_spec a b k : 0 <= k <= line_len a b ->
  let c := line_cell a b k in
  let n := line_len a b in
  2 * Z.abs (n * (fst c - fst a) - k * (fst b - fst a)) <= n /\
  2 * Z.abs (n * (snd c - snd a) - k * (snd b - snd a)) <= n /\
  Z.min (fst a) (fst b) <= fst c <= Z.max (fst a) (fst b) /\
  Z.min (snd a) (snd b) <= snd c <= Z.max (snd a) (snd b) /\
  (k = 0 -> c = a) /\ (k = n -> c = b).
Proof.
  intros Hk c n. unfold c, n, line_cell. unfold line_len in *.
  remember (Z.abs (fst b - fst a)) as dx eqn:Dx. remember (Z.abs (snd b - snd a)) as dy eqn:Dy.
  assert (SX : fst b - fst a = (if fst a <=? fst b then 1 else -1) * dx) by (destruct (fst a <=? fst b) eqn:Q; lia).
  assert (SY : snd b - snd a = (if snd a <=? snd b then 1 else -1) * dy) by (destruct (snd a <=? snd b) eqn:Q; lia).
  remember (if fst a <=? fst b then 1 else -1) as sx eqn:Ex. remember (if snd a <=? snd b then 1 else -1) as sy eqn:Ey.
  assert (Hx : (sx = 1 \/ sx = -1)) by (subst sx; destruct (fst a <=? fst b); auto).
  assert (Hy : (sy = 1 \/ sy = -1)) by (subst sy; destruct (snd a <=? snd b); auto).
  assert (P1 : 0 <= dx) by lia. assert (P2 : 0 <= dy) by lia.
  clear Ex Ey Dx Dy c n. destruct a as [a0 a1], b as [b0 b1]. cbn [fst snd] in *.
  assert (MB : forall D A, 0 <= A <= D -> 0 <= k <= D -> 2 * Z.abs (D * minor D A k - k * A) <= D /\ 0 <= minor D A k <= A).
  { intros D A HA Hk'. destruct (Z.eq_dec D 0) as [->|NZ].
    - assert (A = 0) by lia. assert (k = 0) by lia. subst. unfold minor. cbn. lia.
    - apply minor_bounds; lia. }
  assert (ME : forall D A, 0 <= A <= D -> 2 * Z.abs (D * minor D A k - k * A) <= D -> 0 <= minor D A k <= A -> (k = 0 -> minor D A k = 0) /\ (k = D -> minor D A k = A)).
  { intros D A HA M1 M2. split; intros ->; nia. }
  destruct (dy <=? dx) eqn:K; cbn [fst snd].
  - apply Z.leb_le in K. rewrite Z.max_l in * by lia. destruct (MB dx dy) as [M1 M2]; try lia.
    destruct (ME dx dy) as [M3 M4]; auto; try lia. set (q := minor dx dy k) in *. clearbody q.
    split; [|split; [|split; [|split; [|split]]]].
    + rewrite SX. replace (dx * (a0 + sx * k - a0) - k * (sx * dx)) with 0 by ring. cbn. lia.
    + rewrite SY. replace (dx * (a1 + sy * q - a1) - k * (sy * dy)) with (sy * (dx * q - k * dy)) by ring.
      rewrite Z.abs_mul. assert (Z.abs sy = 1) as -> by lia. lia.
    + destruct Hx; subst sx; lia.
    + destruct Hy; subst sy; lia.
    + intros E0. rewrite (M3 E0). subst k. f_equal; lia.
    + intros E0. rewrite (M4 E0). subst k. f_equal; lia.
  - apply Z.leb_gt in K. rewrite Z.max_r in * by lia. destruct (MB dy dx) as [M1 M2]; try lia.
    destruct (ME dy dx) as [M3 M4]; auto; try lia. set (q := minor dy dx k) in *. clearbody q.
    split; [|split; [|split; [|split; [|split]]]].
    + rewrite SX. replace (dy * (a0 + sx * q - a0) - k * (sx * dx)) with (sx * (dy * q - k * dx)) by ring.
      rewrite Z.abs_mul. assert (Z.abs sx = 1) as -> by lia. lia.
    + rewrite SY. replace (dy * (a1 + sy * k - a1) - k * (sy * dy)) with 0 by ring. cbn. lia.
    + destruct Hx; subst sx; lia.
    + destruct Hy; subst sy; lia.
    + intros E0. rewrite (M3 E0). subst k. f_equal; lia.
    + intros E0. rewrite (M4 E0). subst k. f_equal; lia.
Qed.

Lemma line_cell_neighbour a b k : 0 <= k < line_len a b ->
  let c := line_cell a b k in let c' := line_cell a b (k + 1) in
  Z.max (Z.abs (fst c' - fst c)) (Z.abs (snd c' - snd c)) = 1.
Proof.
  intros Hk c c'. unfold c, c', line_cell. unfold line_len in *.
  remember (Z.abs (fst b - fst a)) as dx eqn:Dx. remember (Z.abs (snd b - snd a)) as dy eqn:Dy.
  remember (if fst a <=? fst b then 1 else -1) as sx eqn:Ex. remember (if snd a <=? snd b then 1 else -1) as sy eqn:Ey.
  assert (Hx : (sx = 1 \/ sx = -1)) by (subst sx; destruct (fst a <=? fst b); auto).
  assert (Hy : (sy = 1 \/ sy = -1)) by (subst sy; destruct (snd a <=? snd b); auto).
  assert (P1 : 0 <= dx) by lia. assert (P2 : 0 <= dy) by lia. clear Ex Ey Dx Dy c c'.
  assert (MS : forall D A, 0 < D -> 0 <= A <= D -> minor D A (k + 1) = minor D A k \/ minor D A (k + 1) = minor D A k + 1).
  { intros D A HD HA. destruct (minor_step D A k HD HA) as [M1 M2].
    destruct (D <=? (Z.quot D 2 + k * A) mod D + A); [right; now apply M1|left; now apply M2]. }
  destruct (dy <=? dx) eqn:K; cbn [fst snd].
  - apply Z.leb_le in K. destruct (MS dx dy) as [->| ->]; try lia; destruct Hx, Hy; subst; lia.
  - apply Z.leb_gt in K. destruct (MS dy dx) as [->| ->]; try lia; destruct Hx, Hy; subst; lia.
Qed.

Lemma line_final a b : exists cells, line_visits a b = Ok cells /\
  let n := Z.max (Z.abs (fst b - fst a)) (Z.abs (snd b - snd a)) in
  Z.of_nat (List.length cells) = n + 1 /\
  nth_error cells 0 = Some a /\ nth_error cells (Z.to_nat n) = Some b /\
  (forall k c c', nth_error cells k = Some c -> nth_error cells (S k) = Some c' ->
     Z.max (Z.abs (fst c' - fst c)) (Z.abs (snd c' - snd c)) = 1) /\
  (forall k c, nth_error cells k = Some c ->
     Z.min (fst a) (fst b) <= fst c <= Z.max (fst a) (fst b) /\
     Z.min (snd a) (snd b) <= snd c <= Z.max (snd a) (snd b) /\
     2 * Z.abs (n * (fst c - fst a) - Z.of_nat k * (fst b - fst a)) <= n /\
     2 * Z.abs (n * (snd c - snd a) - Z.of_nat k * (snd b - snd a)) <= n).
Proof.
  eexists. split; [apply line_run_cells|]. fold (line_len a b). set (n := line_len a b). intros n0. unfold n0. clear n0.
  assert (Hn : 0 <= n) by (unfold n, line_len; lia).
  destruct (line_nth a b _ (line_run_cells a b)) as [L NT]. fold n in L, NT. set (cells := map (line_cell a b) (zseq (n + 1))) in *.
  assert (EX : forall k, (k <= Z.to_nat n)%nat -> nth_error cells k = Some (line_cell a b (Z.of_nat k))).
  { intros k Hk. destruct (nth_error cells k) as [c|] eqn:C.
    - f_equal. now apply NT.
    - apply nth_error_None in C. lia. }
  split; [lia|]. split; [|split; [|split]].
  - rewrite EX by lia. f_equal. apply (line_cell_spec a b 0); [|reflexivity]. fold n. lia.
  - rewrite EX by lia. f_equal. rewrite Z2Nat.id by lia. apply (line_cell_spec a b n); [|reflexivity]. fold n. lia.
  - intros k c c' H1 H2. apply NT in H1 as [H1 ->]. apply NT in H2 as [H2 ->].
    replace (Z.of_nat (S k)) with (Z.of_nat k + 1) by lia. apply line_cell_neighbour. fold n. lia.
  - intros k c H1. apply NT in H1 as [H1 ->]. destruct (line_cell_spec a b (Z.of_nat k)) as (A & B & C & D & _); [fold n; lia|].
    fold n in A, B. split; [exact C|]. split; [exact D|]. split; assumption.
Qed.

(* ------------------------------------------------------------------ *)
(** ** Between positions *)

Section Positions.
Context {E : Env} (X : Exact E) (sqr : Q -> Q) (SQ : sqrt_approx sqr).

Lemma inside_veq m p q : veq p q -> inside m p -> inside m q.
Proof. intros [A B]. unfold inside. now rewrite A, B. Qed.

Lemma contains_veq r c p q : veq p q -> contains r c p -> contains r c q.
Proof. intros [A B]. unfold contains, contains1. now rewrite A, B. Qed.

(** Result of a search whose k-th sample is at parameter k * d, when the loop is
    known to stop at step J and not to stop at the steps in [go]. *)
Lemma limit_loop_spec m st en dir d J (go : nat -> Prop) : geo_ok m ->
  (let s := fsub (resn m) dbl_eps in fst dir * s == d * (fst en - fst st) /\ snd dir * s == d * (snd en - snd st))%Q ->
  (forall k w, (w == (1 - inject_Z (Z.of_nat k) * d) * (1 - inject_Z (Z.of_nat k) * d) * dist2 st en)%Q ->
     (k = J -> Qlt_bool (sqr w) (fsub (resn m) dbl_eps) = true) /\ (go k -> Qlt_bool (sqr w) (fsub (resn m) dbl_eps) = false)) ->
  (forall k, go (S k) -> k = 0%nat \/ go k) ->
  forall fuel k p, (k < J)%nat -> (J - k <= fuel)%nat -> veq p (along st en (inject_Z (Z.of_nat k) * d)) ->
  (exists i j, limit_loop sqr m en dir fuel p = Ok (Some i) /\ (k <= j < J)%nat /\ in_range (size m) i /\
     contains (resn m) (centre m i) (along st en (inject_Z (Z.of_nat j) * d)) /\
     (j <> k -> ~ inside m p)) \/
  (limit_loop sqr m en dir fuel p = Ok None /\ ~ inside m p /\
     forall j, (k < j)%nat -> go j -> (forall i, (k < i <= j)%nat -> go i) -> ~ inside m (along st en (inject_Z (Z.of_nat j) * d))).
Proof.
  intros G D Q _. induction fuel as [|f IH]; intros k p Hk Hf V; [lia|]. cbn [limit_loop].
  rewrite (surjective_pairing (getIndex m p)). rewrite fst_getIndex.
  destruct (isInside m p) eqn:In0.
  - left. apply (isInside_iff X) in In0. destruct (getIndex_contains X m p G In0) as [R C].
    exists (snd (getIndex m p)), k. split; [reflexivity|]. split; [lia|]. split; [exact R|]. split; [|congruence].
    now apply (contains_veq _ _ p).
  - assert (NI : ~ inside m p). { intros C. apply (isInside_iff X) in C. congruence. }
    set (s := fsub (resn m) dbl_eps) in *.
    set (p' := (fadd (fst p) (fmul s (fst dir)), fadd (snd p) (fmul s (snd dir)))).
    assert (V' : veq p' (along st en (inject_Z (Z.of_nat (S k)) * d))).
    { destruct V as [V1 V2]. destruct D as [D1 D2]. rewrite Nat2Z.inj_succ, <- Z.add_1_r, inject_Z_plus. unfold p', along in *. split; cbn [fst snd] in *.
      - rewrite (fadd_eq X), (fmul_eq X), V1. change (inject_Z 1) with 1%Q. lra.
      - rewrite (fadd_eq X), (fmul_eq X), V2. change (inject_Z 1) with 1%Q. lra. }
    set (w := fadd (fmul (fsub (fst en) (fst p')) (fsub (fst en) (fst p'))) (fmul (fsub (snd en) (snd p')) (fsub (snd en) (snd p')))).
    assert (W : (w == (1 - inject_Z (Z.of_nat (S k)) * d) * (1 - inject_Z (Z.of_nat (S k)) * d) * dist2 st en)%Q).
    { unfold w. rewrite (fadd_eq X), !(fmul_eq X), !(fsub_eq X). destruct V' as [-> ->]. unfold along, dist2. cbn [fst snd]. ring. }
    change (fsub (fst en) (fadd (fst p) (fmul s (fst dir)))) with (fsub (fst en) (fst p')).
    change (fsub (snd en) (fadd (snd p) (fmul s (snd dir)))) with (fsub (snd en) (snd p')). fold w.
    destruct (Q (S k) w W) as [Q1 Q2].
    destruct (Qlt_bool (sqr w) s) eqn:K.
    + right. split; [reflexivity|]. split; [exact NI|]. intros j Hj Gj Ga. exfalso.
      assert (go (S k)) as GS by (apply Ga; lia). specialize (Q2 GS). discriminate.
    + assert (S k <> J) by (intros C; specialize (Q1 C); discriminate).
      destruct (IH (S k) p') as [(i & j & A1 & A2 & A3 & A4 & A5)|(A1 & A2 & A3)]; try lia; [exact V'| |].
      * left. exists i, j. split; [exact A1|]. split; [lia|]. split; [exact A3|]. split; [exact A4|]. auto.
      * right. split; [exact A1|]. split; [exact NI|]. intros j Hj Gj Ga.
        destruct (Nat.eq_dec j (S k)) as [->|NE].
        -- intros C. apply A2. apply (inside_veq m (along st en (inject_Z (Z.of_nat (S k)) * d))); auto. destruct V'. split; now symmetry.
        -- apply A3; auto; [lia|]. intros i Hi. apply Ga. lia.
Qed.

Lemma sq_le a b : (0 <= b -> a * a <= b * b -> a <= b)%Q.
Proof. intros Hb H. apply Qnot_lt_le. intros K. nra. Qed.

Lemma sq_lt a b : (0 <= b -> a * a < b * b -> a < b)%Q.
Proof. intros Hb H. apply Qnot_le_lt. intros K. nra. Qed.

Lemma limited_spec m st en : geo_ok m -> (dbl_eps < resn m)%Q ->
  (veq st en \/ (resn m * resn m <= 50 * dist2 st en)%Q) ->
  exists N o, (forall fuel, (N <= fuel)%nat -> limited_index sqr m st en fuel = Ok o) /\
  match o with
  | Some i => enters m st en i
  | None => ~ inside m st /\
      forall t0 t1, (0 <= t0)%Q -> (t1 <= 1)%Q -> (6 * (resn m * resn m) <= (t1 - t0) * (t1 - t0) * dist2 st en)%Q -> (t0 <= t1)%Q ->
        ~ (forall t, (t0 <= t /\ t <= t1)%Q -> inside m (along st en t))
  end.
Proof.
  intros G HE HS. pose proof (g_res _ G) as Hr.
  set (s := fsub (resn m) dbl_eps). assert (Es : (s == resn m - dbl_eps)%Q) by (unfold s; now exqX X).
  assert (Hs : (0 < s)%Q) by lra.
  assert (Hsr : (s <= resn m)%Q). { assert (0 < dbl_eps)%Q by reflexivity. lra. }
  unfold limited_index.
  set (z := fadd (fmul (fsub (fst en) (fst st)) (fsub (fst en) (fst st))) (fmul (fsub (snd en) (snd st)) (fsub (snd en) (snd st)))).
  assert (Ez : (z == dist2 st en)%Q). { unfold z, dist2. rewrite (fadd_eq X), !(fmul_eq X), !(fsub_eq X). reflexivity. }
  assert (N1 : (0 <= (fst en - fst st) * (fst en - fst st))%Q) by (destruct (Qlt_le_dec (fst en - fst st) 0); nra).
  assert (N2 : (0 <= (snd en - snd st) * (snd en - snd st))%Q) by (destruct (Qlt_le_dec (snd en - snd st) 0); nra).
  destruct (Qlt_bool 0 z) eqn:Kz.
  - apply Qlt_bool_iff in Kz.
    assert (HS' : (resn m * resn m <= 50 * z)%Q).
    { destruct HS as [[A B]|HS]; [|now rewrite Ez]. exfalso. unfold dist2 in Ez. rewrite A, B in Ez. lra. }
    destruct (SQ z) as (U0 & U1 & U2); [lra|]. set (u := sqr z) in *.
    assert (Hu : (0 < u)%Q). { apply Qnot_le_lt. intros K. assert (u == 0)%Q as Z0 by lra. rewrite Z0 in U1. lra. }
    assert (Hsu : (s <= 10 * u)%Q). { apply sq_le; [lra|]. assert (s * s <= resn m * resn m)%Q by nra. lra. }
    set (d := (s / u)%Q). assert (Hd : (d * u == s)%Q) by (unfold d; field; lra).
    assert (Hd0 : (0 < d)%Q) by (unfold d; apply Qlt_shift_div_l; lra).
    set (J0 := Qfloor (u / s + (1#2))). set (J := Z.to_nat (Z.max 1 J0)).
    assert (JB : (- (9#10) * s <= u - inject_Z (Z.of_nat J) * s /\ u - inject_Z (Z.of_nat J) * s <= (9#10) * s)%Q).
    { assert (F1 : (inject_Z J0 <= u / s + (1#2))%Q) by apply Qfloor_le.
      assert (F2 : (u / s + (1#2) < inject_Z (J0 + 1))%Q) by apply Qlt_floor.
      rewrite inject_Z_plus in F2. change (inject_Z 1) with 1%Q in F2.
      assert (F3 : (u / s * s == u)%Q) by (field; lra).
      unfold J. destruct (Z_le_gt_dec 1 J0).
      - rewrite Z.max_r by lia. rewrite Z2Nat.id by lia. nra.
      - rewrite Z.max_l by lia. change (Z.of_nat (Z.to_nat 1)) with 1. change (inject_Z 1) with 1%Q.
        assert (inject_Z J0 <= 0)%Q by (change 0%Q with (inject_Z 0); rewrite <- Zle_Qle; lia). nra. }
    assert (JP : (1 <= J)%nat) by (unfold J; lia).
    assert (JT : forall j, (j < J)%nat -> (0 <= inject_Z (Z.of_nat j) * d /\ inject_Z (Z.of_nat j) * d < 1)%Q).
    { intros j Hj. assert (J1 : (inject_Z (Z.of_nat j) + 1 <= inject_Z (Z.of_nat J))%Q).
      { change 1%Q with (inject_Z 1). rewrite <- inject_Z_plus, <- Zle_Qle. lia. }
      assert (J2 : (0 <= inject_Z (Z.of_nat j))%Q) by (change 0%Q with (inject_Z 0); rewrite <- Zle_Qle; lia).
      split; [apply Qmult_le_0_compat; lra|]. 
      assert (inject_Z (Z.of_nat j) * s < u)%Q.
      { destruct (Qlt_le_dec 0 (inject_Z (Z.of_nat j) * s)); [nra|nra]. }
      apply Qnot_le_lt. intros K. assert (u <= inject_Z (Z.of_nat j) * d * u)%Q by nra. nra. }
    set (go := fun k : nat => (k = 0%nat \/ inject_Z (Z.of_nat k) * s <= u - (6#5) * s)%Q).
    assert (LQ : forall k w, (w == (1 - inject_Z (Z.of_nat k) * d) * (1 - inject_Z (Z.of_nat k) * d) * dist2 st en)%Q ->
      (k = J -> Qlt_bool (sqr w) s = true) /\ ((0 < k)%nat -> go k -> Qlt_bool (sqr w) s = false)).
    { intros k w Ew. rewrite <- Ez in Ew. set (e := (u - inject_Z (Z.of_nat k) * s)%Q).
      assert (Ew' : (w * (u * u) == e * e * z)%Q).
      { rewrite Ew. unfold e. rewrite <- Hd. ring. }
      assert (Pe : (0 <= e * e)%Q) by (destruct (Qlt_le_dec e 0); nra).
      assert (Puu : (0 < u * u)%Q) by nra.
      assert (Pw : (0 <= w)%Q). { apply Qnot_lt_le. intros K. assert (0 <= e * e * z)%Q by (apply Qmult_le_0_compat; lra). nra. }
      destruct (SQ w Pw) as (W0 & W1 & W2).
      assert (Wu : (w * 9 <= e * e * 10)%Q).
      { apply Qnot_lt_le. intros K. assert (e * e * 10 * (u * u) < w * 9 * (u * u))%Q by nra.
        assert (e * e * z * 9 <= e * e * (u * u) * 10)%Q by nra. nra. }
      assert (Wl : (e * e * 10 <= w * 11)%Q).
      { apply Qnot_lt_le. intros K. assert (w * 11 * (u * u) < e * e * 10 * (u * u))%Q by nra.
        assert (e * e * (u * u) * 10 <= e * e * z * 11)%Q by nra. nra. }
      split.
      - intros ->. apply Qlt_bool_iff. apply sq_lt; [lra|]. fold e in JB. destruct JB as [B1 B2].
        assert (e * e <= (81#100) * (s * s))%Q by (destruct (Qlt_le_dec e 0); nra). nra.
      - intros Hk [->|Gk]; [lia|]. destruct (Qlt_bool (sqr w) s) eqn:K; auto. apply Qlt_bool_iff in K. exfalso.
        assert (Be : ((6#5) * s <= e)%Q) by (unfold e; lra).
        assert ((36#25) * (s * s) <= e * e)%Q by nra.
        assert (sqr w * sqr w <= s * s)%Q by nra. nra. }
    assert (DD : (fst (fdiv (fsub (fst en) (fst st)) u, fdiv (fsub (snd en) (snd st)) u) * s == d * (fst en - fst st) /\
                  snd (fdiv (fsub (fst en) (fst st)) u, fdiv (fsub (snd en) (snd st)) u) * s == d * (snd en - snd st))%Q).
    { cbn [fst snd]. exqX X. unfold d. split; field; lra. }
    set (dir := (fdiv (fsub (fst en) (fst st)) u, fdiv (fsub (snd en) (snd st)) u)) in *. clearbody dir.
    set (go' := fun k : nat => (0 < k)%nat /\ go k).
    assert (L : forall fuel, (J <= fuel)%nat ->
      (exists i j, limit_loop sqr m en dir fuel st = Ok (Some i) /\ (0 <= j < J)%nat /\ in_range (size m) i /\
        contains (resn m) (centre m i) (along st en (inject_Z (Z.of_nat j) * d)) /\ (j <> 0%nat -> ~ inside m st)) \/
      (limit_loop sqr m en dir fuel st = Ok None /\ ~ inside m st /\
        forall j, (0 < j)%nat -> go' j -> (forall i, (0 < i <= j)%nat -> go' i) -> ~ inside m (along st en (inject_Z (Z.of_nat j) * d)))).
    { intros fuel Hf. apply (limit_loop_spec m st en dir d J go'); auto; try lia.
      - intros k w Ew. destruct (LQ k w Ew) as [Q1 Q2]. split; [exact Q1|]. intros [G1 G2]. auto.
      - intros k [_ [C|C]]; [lia|]. destruct k; [now left|right]. split; [lia|]. right.
        assert (inject_Z (Z.of_nat (S k)) <= inject_Z (Z.of_nat (S (S k))))%Q by (rewrite <- Zle_Qle; lia). nra.
      - unfold along. split; cbn; ring. }
    assert (MONO : forall f1 f2, (J <= f1)%nat -> (J <= f2)%nat -> limit_loop sqr m en dir f1 st = limit_loop sqr m en dir f2 st).
    { assert (ME : forall f p r, limit_loop sqr m en dir f p = Ok r -> limit_loop sqr m en dir (S f) p = Ok r).
      { induction f as [|f IH]; intros p r H; [discriminate|].
        change (limit_loop sqr m en dir (S (S f)) p) with
          (let '(ok, i) := getIndex m p in if ok then Ok (Some i) else
             let step := fsub (resn m) dbl_eps in
             let st' := (fadd (fst p) (fmul step (fst dir)), fadd (snd p) (fmul step (snd dir))) in
             let dx := fsub (fst en) (fst st') in
             let dy := fsub (snd en) (snd st') in
             if Qlt_bool (sqr (fadd (fmul dx dx) (fmul dy dy))) step then Ok None else limit_loop sqr m en dir (S f) st').
        cbn [limit_loop] in H. destruct (getIndex m p) as [ok i]. destruct ok; [exact H|]. cbv zeta in *.
        match goal with |- (if ?c then _ else _) = _ => destruct c end; [exact H|]. now apply IH. }
      assert (MJ : forall n, limit_loop sqr m en dir (n + J) st = limit_loop sqr m en dir J st).
      { induction n as [|n IH]; [reflexivity|]. cbn [Nat.add]. 
        destruct (L (n + J)%nat) as [(i & j & A & _)|(A & _)]; [lia| |]; rewrite <- IH, A; now apply ME. }
      intros f1 f2 H1 H2. replace f1 with ((f1 - J) + J)%nat by lia. replace f2 with ((f2 - J) + J)%nat by lia. now rewrite !MJ. }
    destruct (L J (le_n _)) as [(i & j & A1 & A2 & A3 & A4 & A5)|(A1 & A2 & A3)].
    + exists J, (Some i). split; [intros fuel Hf; now rewrite (MONO fuel J)|].
      exists (inject_Z (Z.of_nat j) * d)%Q. split; [apply JT; lia|]. split; [exact A3|]. split; [exact A4|].
      intros In0. destruct (Nat.eq_dec j 0) as [->|NE]; [|exfalso; now apply A5]. change (inject_Z (Z.of_nat 0)) with 0%Q. ring.
    + exists J, None. split; [intros fuel Hf; now rewrite (MONO fuel J)|]. split; [exact A2|].
      intros t0 t1 T0 T1 TL T01 C. rewrite <- Ez in TL.
      assert (DT : ((11#5) * d <= t1 - t0)%Q).
      { apply sq_le; [lra|]. 
        assert (d * d * (u * u) == s * s)%Q by (rewrite <- Hd; ring).
        assert (s * s <= resn m * resn m)%Q by nra.
        apply Qnot_lt_le. intros K.
        assert ((t1 - t0) * (t1 - t0) * z < (11#5) * d * ((11#5) * d) * z)%Q by nra.
        assert (d * d * z * 9 <= d * d * (u * u) * 10)%Q by (assert (0 <= d * d)%Q by nra; nra). nra. }
      set (j := Z.to_nat (Qceiling (t0 / d))).
      assert (C1 : (t0 / d <= inject_Z (Qceiling (t0 / d)))%Q) by apply Qle_ceiling.
      assert (C2 : (inject_Z (Qceiling (t0 / d) - 1) < t0 / d)%Q) by apply Qceiling_lt.
      assert (CP : 0 <= Qceiling (t0 / d)).
      { change 0 with (Qceiling 0). apply Qceiling_resp_le. apply Qle_shift_div_l; lra. }
      assert (T3 : (t0 / d * d == t0)%Q) by (field; lra).
      unfold Z.sub in C2. rewrite inject_Z_plus in C2. change (inject_Z (Z.opp 1)) with (-1)%Q in C2.
      assert (Ej : Z.of_nat j = Qceiling (t0 / d)) by (unfold j; now rewrite Z2Nat.id).
      rewrite <- Ej in C1, C2. clear CP. clearbody j. set (q := (t0 / d)%Q) in *. clearbody q.
      assert (J1 : (t0 <= inject_Z (Z.of_nat j) * d)%Q).
      { rewrite <- T3. apply Qmult_le_compat_r; lra. }
      assert (J2 : (inject_Z (Z.of_nat j) * d <= t0 + d)%Q).
      { assert (inject_Z (Z.of_nat j) * d <= (q + 1) * d)%Q by (apply Qmult_le_compat_r; lra). lra. }
      assert (J3 : (inject_Z (Z.of_nat j) * d <= t1)%Q) by lra.
      assert (J4 : (inject_Z (Z.of_nat j) * d * u <= u - (6#5) * s)%Q) by nra.
      assert (J5 : (inject_Z (Z.of_nat j) * s <= u - (6#5) * s)%Q) by nra.
      destruct (Nat.eq_dec j 0) as [E0|NE].
      * apply A2. apply (inside_veq m (along st en (inject_Z (Z.of_nat j) * d))); [|apply C; lra].
        rewrite E0. unfold along. split; cbn; ring.
      * apply (A3 j); try lia.
        -- split; [lia|]. now right.
        -- intros i Hi. split; [lia|]. right.
           assert (inject_Z (Z.of_nat i) <= inject_Z (Z.of_nat j))%Q by (rewrite <- Zle_Qle; lia). nra.
        -- apply C. lra.
  - (* a segment without length *)
    apply Qlt_bool_false in Kz. unfold dist2 in Ez.
    assert (Z1 : (fst en - fst st == 0)%Q) by (assert ((fst en - fst st) * (fst en - fst st) == 0)%Q as K by lra; destruct (Qmult_integral _ _ K); auto).
    assert (Z2 : (snd en - snd st == 0)%Q) by (assert ((snd en - snd st) * (snd en - snd st) == 0)%Q as K by lra; destruct (Qmult_integral _ _ K); auto).
    exists 1%nat, (if isInside m st then Some (snd (getIndex m st)) else None). split.
    + intros fuel Hf. destruct fuel as [|f]; [lia|]. cbn [limit_loop].
      rewrite (surjective_pairing (getIndex m st)), fst_getIndex. destruct (isInside m st); [reflexivity|]. cbn [snd fst]. fold s.
      match goal with |- (if Qlt_bool (sqr ?w) _ then _ else _) = _ => set (w0 := w) end.
      assert (W : (w0 == 0)%Q).
      { unfold w0. exqX X. assert (fst en == fst st)%Q as -> by lra. assert (snd en == snd st)%Q as -> by lra. ring. }
      destruct (SQ w0) as (W0 & W1 & W2); [lra|].
      assert (Qlt_bool (sqr w0) s = true) as ->; [|reflexivity].
      apply Qlt_bool_iff. apply sq_lt; [lra|]. nra.
    + destruct (isInside m st) eqn:K.
      * apply (isInside_iff X) in K. destruct (getIndex_contains X m st G K) as [R C]. exists 0%Q.
        split; [lra|]. split; [exact R|]. split; [|reflexivity]. apply (contains_veq _ _ st); auto. unfold along. split; cbn; ring.
      * split; [intros C; apply (isInside_iff X) in C; congruence|].
        intros t0 t1 _ _ C. exfalso. unfold dist2 in C. rewrite Z1, Z2 in C. nra.
Qed.

Lemma dist2_sym a b : (dist2 a b == dist2 b a)%Q.
Proof. unfold dist2. ring. Qed.

Lemma positions_final m st en : geo_ok m -> (dbl_eps < resn m)%Q ->
  (veq st en \/ (resn m * resn m <= 50 * dist2 st en)%Q) ->
  exists N r, (forall fuel, (N <= fuel)%nat -> line_visits_positions sqr m st en fuel = r) /\
  ((exists a b, r = line_visits a b /\ enters m st en a /\ enters m en st b) \/
   (r = Fault Uninit /\ (~ inside m st \/ ~ inside m en) /\
    forall t0 t1, (0 <= t0)%Q -> (t1 <= 1)%Q -> (t0 <= t1)%Q -> (6 * (resn m * resn m) <= (t1 - t0) * (t1 - t0) * dist2 st en)%Q ->
        ~ (forall t, (t0 <= t /\ t <= t1)%Q -> inside m (along st en t)))).
Proof.
  intros G HE HS.
  destruct (limited_spec m st en G HE HS) as (N1 & o1 & L1 & S1).
  destruct (limited_spec m en st G HE) as (N2 & o2 & L2 & S2).
  { destruct HS as [[A B]|HS]; [left; split; now symmetry|right]. now rewrite dist2_sym. }
  exists (Nat.max N1 N2).
  destruct o1 as [a|]; [destruct o2 as [b|]|].
  - exists (line_visits a b). split; [|left; eauto].
    intros fuel Hf. unfold line_visits_positions, line_new_positions. rewrite L1 by lia. cbn [rbind]. rewrite L2 by lia. reflexivity.
  - exists (Fault Uninit). split.
    + intros fuel Hf. unfold line_visits_positions, line_new_positions. rewrite L1 by lia. cbn [rbind]. rewrite L2 by lia. reflexivity.
    + right. split; [reflexivity|]. destruct S2 as [S2 S3]. split; [now right|]. intros t0 t1 A1 A2 A3 A4 C.
      apply (S3 (1 - t1)%Q (1 - t0)%Q); try lra.
      * rewrite dist2_sym. assert ((1 - t0 - (1 - t1)) == t1 - t0)%Q as -> by ring. exact A4.
      * intros t Ht. apply (inside_veq m (along st en (1 - t))); [|apply C; lra]. unfold along. split; cbn; ring.
  - exists (Fault Uninit). split.
    + intros fuel Hf. unfold line_visits_positions, line_new_positions. rewrite L1 by lia. reflexivity.
    + right. split; [reflexivity|]. destruct S1 as [S1 S3]. split; [now left|]. intros t0 t1 A1 A2 A3 A4 C.
      apply (S3 t0 t1); auto.
Qed.

End Positions.
