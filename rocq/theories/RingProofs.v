(** The ring walk of the spiral iterator. *)
From Coq Require Import ZArith QArith List Bool Lia.
From Verif Require Import Base Mat GridMapMath GridIter CostMap Iterators Spec BaseLemmas GeoLemmas.
Import ListNotations.
Open Scope Z_scope.

(** Offsets whose norm has integer part d. *)
Definition on_ring (d : Z) (p : idx) : Prop :=
  d * d <= fst p * fst p + snd p * snd p < (d + 1) * (d + 1).

Lemma inorm_iff d x y : 0 <= d -> inorm x y = d <-> on_ring d (x, y).
Proof.
  intros Hd. unfold inorm, on_ring. cbn [fst snd]. assert (0 <= x * x + y * y) by nia.
  split.
  - intros <-. pose proof (Z.sqrt_spec (x * x + y * y) H). rewrite Z.add_1_r. exact H0.
  - intros K. apply Z.sqrt_unique. lia.
Qed.

(* ------------------------------------------------------------------ *)
(** ** A walk that climbs a rank *)

Section Walk.
Context (d : Z) (S : idx -> Prop) (rank : idx -> Z) (M : nat).
Hypothesis H0 : S (d, 0).
Hypothesis HR : forall p, S p -> 0 <= rank p < Z.of_nat M.
Hypothesis HS : forall p, S p -> S (ring_step d p) /\ (ring_step d p = (d, 0) \/ rank p < rank (ring_step d p)).
Hypothesis HP : forall p, S p -> p <> (d, 0) -> exists q, S q /\ ring_step d q = p /\ rank q < rank p.

Lemma walk_ok : forall fuel p, S p -> Z.of_nat M - rank p <= Z.of_nat fuel ->
  exists l, ring_walk d fuel p = Ok l /\ NoDup l /\ In p l /\
    (forall q, In q l -> S q /\ rank p <= rank q) /\
    (forall q, In q l -> ring_step d q = (d, 0) \/ In (ring_step d q) l).
Proof.
  induction fuel as [|f IH]; intros p Sp Hf; [specialize (HR p Sp); lia|]. cbn [ring_walk].
  destruct (HS p Sp) as [S1 R1].
  destruct (idx_eqb (ring_step d p) (d, 0)) eqn:K.
  - apply idx_eqb_eq in K. exists [p]. split; [reflexivity|]. split; [repeat constructor; auto|]. split; [now left|].
    split; intros q [<-|[]]; [split; [auto|lia]|auto].
  - assert (NE : ring_step d p <> (d, 0)). { intros C. apply idx_eqb_eq in C. congruence. }
    destruct R1 as [R1|R1]; [contradiction|].
    destruct (IH (ring_step d p) S1) as (l & L1 & L2 & L3 & L4 & L5); [lia|].
    rewrite L1. cbn [rbind]. exists (p :: l). split; [reflexivity|]. split; [|split; [now left|split]].
    + constructor; auto. intros C. apply L4 in C as [_ C]. lia.
    + intros q [<-|Hq]; [split; [auto|lia]|]. destruct (L4 q Hq). split; [auto|lia].
    + intros q [<-|Hq]; [right; now right|]. destruct (L5 q Hq) as [L|L]; [auto|right; now right].
Qed.

Lemma walk_final : exists l, ring_walk d M (d, 0) = Ok l /\ NoDup l /\ forall p, In p l <-> S p.
Proof.
  destruct (walk_ok M (d, 0) H0) as (l & L1 & L2 & L3 & L4 & L5); [specialize (HR _ H0); lia|].
  exists l. split; [exact L1|]. split; [exact L2|]. intros p. split; [intros Hp; now apply L4|].
  intros Sp. remember (Z.to_nat (rank p)) as n eqn:En. revert p Sp En.
  induction n as [n IH] using (well_founded_induction lt_wf). intros p Sp En.
  destruct (idx_eqb p (d, 0)) eqn:K; [apply idx_eqb_eq in K; now subst p|].
  assert (NE : p <> (d, 0)). { intros C. apply idx_eqb_eq in C. congruence. }
  destruct (HP p Sp NE) as (q & Sq & Q1 & Q2). pose proof (HR q Sq). pose proof (HR p Sp).
  assert (Iq : In q l) by (apply (IH (Z.to_nat (rank q))); auto; lia).
  destruct (L5 q Iq) as [C|C]; [congruence|]. now rewrite Q1 in C.
Qed.
End Walk.

(* ------------------------------------------------------------------ *)
(** ** The first quadrant *)

Section Quadrant.
Context (d : Z) (Hd : 1 <= d).

Definition near (x y : Z) : bool := inorm x y =? d.
Lemma near_iff x y : near x y = true <-> on_ring d (x, y).
Proof. unfold near. rewrite Z.eqb_eq. apply inorm_iff. lia. Qed.
Lemma near_false x y : near x y = false <-> ~ on_ring d (x, y).
Proof. rewrite <- near_iff. destruct (near x y); intuition congruence. Qed.

Definition can_x (p : idx) : bool := negb (- Z.sgn (snd p) =? 0) && near (fst p + - Z.sgn (snd p)) (snd p).
Definition can_y (p : idx) : bool := negb (Z.sgn (fst p) =? 0) && near (fst p) (snd p + Z.sgn (fst p)).

Lemma ring_step_eq p : ring_step d p =
  if can_x p then (fst p - Z.sgn (snd p), snd p)
  else if can_y p then (fst p, snd p + Z.sgn (fst p))
  else (fst p - Z.sgn (snd p), snd p + Z.sgn (fst p)).
Proof. reflexivity. Qed.

(** The two single moves exclude each other. *)
Lemma exclusive p : on_ring d p -> can_x p = true -> can_y p = true -> False.
Proof.
  destruct p as [x y]. unfold can_x, can_y. cbn [fst snd]. rewrite !andb_true_iff, !near_iff, !negb_true_iff.
  intros O [A1 A2] [B1 B2]. unfold on_ring in *. cbn [fst snd] in *.
  destruct (Z.sgn_spec x) as [[X1 X2]|[[X1 X2]|[X1 X2]]]; rewrite X2 in *; try discriminate B1;
  destruct (Z.sgn_spec y) as [[Y1 Y2]|[[Y1 Y2]|[Y1 Y2]]]; rewrite Y2 in *; try discriminate A1; clear A1 B1 X2 Y2.
  - assert (d + 1 <= x + y) by nia. nia.
  - assert (d + 1 <= x - y) by nia. nia.
  - assert (d + 1 <= - x + y) by nia. nia.
  - assert (d + 1 <= - x - y) by nia. nia.
Qed.

(** Quarter turn. *)
Definition rot (p : idx) : idx := (- snd p, fst p).

Lemma on_ring_rot p : on_ring d (rot p) <-> on_ring d p.
Proof. unfold on_ring, rot. cbn [fst snd]. replace (- snd p * - snd p + fst p * fst p) with (fst p * fst p + snd p * snd p) by ring. tauto. Qed.

Lemma near_sq x y x' y' : x * x + y * y = x' * x' + y' * y' -> near x y = near x' y'.
Proof. unfold near, inorm. now intros ->. Qed.

Lemma step_rot p : on_ring d p -> ring_step d (rot p) = rot (ring_step d p).
Proof.
  intros O. rewrite !ring_step_eq.
  assert (E1 : can_x (rot p) = can_y p).
  { unfold can_x, can_y, rot. cbn [fst snd]. f_equal.
    - f_equal. destruct (Z.sgn_spec (fst p)) as [[_ ->]|[[_ ->]|[_ ->]]]; reflexivity.
    - apply near_sq. ring. }
  assert (E2 : can_y (rot p) = can_x p).
  { unfold can_x, can_y, rot. cbn [fst snd]. rewrite Z.sgn_opp. f_equal. apply near_sq. ring. }
  rewrite E1, E2. pose proof (exclusive p O) as EX. unfold rot.
  destruct (can_x p), (can_y p); cbn [fst snd]; rewrite ?Z.sgn_opp; try (f_equal; lia).
Qed.

(** Steps in the first quadrant. *)
Lemma quadrant_bounds x y : on_ring d (x, y) -> 0 <= x -> 0 <= y -> x <= d /\ y <= d.
Proof. unfold on_ring. cbn [fst snd]. intros O Hx Hy. split; nia. Qed.

Lemma axis x : 0 <= x -> on_ring d (x, 0) -> x = d.
Proof. unfold on_ring. cbn [fst snd]. intros. nia. Qed.

Lemma axis' y : 0 <= y -> on_ring d (0, y) -> y = d.
Proof. unfold on_ring. cbn [fst snd]. intros. nia. Qed.

Lemma q_step x y : 1 <= x -> 0 <= y -> on_ring d (x, y) ->
  let p' := ring_step d (x, y) in
  on_ring d p' /\ 0 <= fst p' /\ 0 <= snd p' /\ fst p' <= x /\ y <= snd p' /\ y - x < snd p' - fst p'.
Proof.
  intros Hx Hy O. cbv zeta. rewrite ring_step_eq. unfold can_x, can_y. cbn [fst snd].
  rewrite (Z.sgn_pos x) by lia. destruct (quadrant_bounds x y O ltac:(lia) Hy) as [Bx By].
  destruct (Z.eq_dec y 0) as [->|NY].
  - apply axis in O as E; [|lia]. subst x. cbn [Z.sgn Z.opp Z.eqb negb andb].
    assert (near d (0 + 1) = true) as ->. { apply near_iff. unfold on_ring. cbn [fst snd]. nia. }
    cbn [fst snd]. split; [unfold on_ring; cbn [fst snd]; nia|lia].
  - rewrite (Z.sgn_pos y) by lia. cbn [Z.opp Z.eqb negb andb].
    change (x + -1) with (x - 1). destruct (near (x - 1) y) eqn:NA.
    + cbn [fst snd]. apply near_iff in NA. split; [exact NA|lia].
    + destruct (near x (y + 1)) eqn:NB; cbn [fst snd].
      * apply near_iff in NB. split; [exact NB|lia].
      * apply near_false in NA, NB. unfold on_ring in *. cbn [fst snd] in *. split; [|lia]. nia.
Qed.

Lemma q_pred x y : 1 <= x -> 1 <= y -> on_ring d (x, y) ->
  exists x' y', 1 <= x' /\ 0 <= y' /\ on_ring d (x', y') /\ ring_step d (x', y') = (x, y) /\ y' - x' < y - x.
Proof.
  intros Hx Hy O. destruct (quadrant_bounds x y O ltac:(lia) ltac:(lia)) as [Bx By].
  destruct (near (x + 1) y) eqn:N1.
  - exists (x + 1), y. apply near_iff in N1. split; [lia|]. split; [lia|]. split; [exact N1|]. split; [|lia].
    rewrite ring_step_eq. unfold can_x. cbn [fst snd]. rewrite (Z.sgn_pos y) by lia. cbn [Z.opp Z.eqb negb andb].
    replace (x + 1 + -1) with x by lia. assert (near x y = true) as -> by now apply near_iff. f_equal; lia.
  - destruct (near x (y - 1)) eqn:N2.
    + exists x, (y - 1). apply near_iff in N2. split; [lia|]. split; [lia|]. split; [exact N2|]. split; [|lia].
      assert (CY : can_y (x, y - 1) = true).
      { unfold can_y. cbn [fst snd]. rewrite (Z.sgn_pos x) by lia. cbn [Z.eqb negb andb].
        replace (y - 1 + 1) with y by lia. now apply near_iff. }
      rewrite ring_step_eq, CY. pose proof (exclusive (x, y - 1) N2) as EX.
      destruct (can_x (x, y - 1)); [exfalso; auto|]. cbn [fst snd]. rewrite (Z.sgn_pos x) by lia. f_equal; lia.
    + apply near_false in N1, N2. unfold on_ring in *. cbn [fst snd] in *.
      assert (Hy2 : 2 <= y). { destruct (Z.eq_dec y 1); [|lia]. subst y. exfalso. nia. }
      exists (x + 1), (y - 1). split; [lia|]. split; [lia|]. cbn [fst snd]. split; [nia|]. split; [|lia].
      rewrite ring_step_eq. unfold can_x, can_y. cbn [fst snd]. rewrite (Z.sgn_pos (x + 1)), (Z.sgn_pos (y - 1)) by lia.
      cbn [Z.opp Z.eqb negb andb]. replace (x + 1 + -1) with x by lia. replace (y - 1 + 1) with y by lia.
      assert (near x (y - 1) = false) as -> by (apply near_false; unfold on_ring; cbn [fst snd]; lia).
      assert (near (x + 1) y = false) as -> by (apply near_false; unfold on_ring; cbn [fst snd]; lia). f_equal; lia.
Qed.

Lemma top_pred : on_ring d (1, d) /\ ring_step d (1, d) = (0, d).
Proof.
  split; [unfold on_ring; cbn [fst snd]; nia|]. rewrite ring_step_eq. unfold can_x. cbn [fst snd].
  rewrite (Z.sgn_pos d) by lia. cbn [Z.opp Z.eqb negb andb].
  assert (near (1 + -1) d = true) as ->; [|f_equal; lia]. apply near_iff. unfold on_ring. cbn [fst snd]. nia.
Qed.

(* ------------------------------------------------------------------ *)
(** ** The whole ring *)

Fixpoint rotk (k : nat) (p : idx) : idx := match k with O => p | S k => rot (rotk k p) end.

Lemma on_ring_rotk k p : on_ring d (rotk k p) <-> on_ring d p.
Proof. induction k as [|k IH]; cbn [rotk]; [tauto|]. now rewrite on_ring_rot. Qed.

Lemma step_rotk k p : on_ring d p -> ring_step d (rotk k p) = rotk k (ring_step d p).
Proof.
  intros O. induction k as [|k IH]; cbn [rotk]; [reflexivity|]. rewrite step_rot, IH; auto. now apply on_ring_rotk.
Qed.

Lemma rotk_rot k p : rotk k (rot p) = rotk (S k) p.
Proof. induction k as [|k IH]; [reflexivity|]. cbn [rotk] in *. now rewrite IH. Qed.

Lemma rot4 p : rotk 4 p = p.
Proof. destruct p as [x y]. unfold rotk, rot. cbn [fst snd]. f_equal; lia. Qed.

Lemma quadrants p : on_ring d p -> exists k x y, (k < 4)%nat /\ p = rotk k (x, y) /\ 1 <= x /\ 0 <= y /\ on_ring d (x, y).
Proof.
  intros O. destruct p as [x y].
  assert (NZ : x <> 0 \/ y <> 0). { unfold on_ring in O. cbn [fst snd] in O. nia. }
  assert (C : (0 < x /\ 0 <= y) \/ (x <= 0 /\ 0 < y) \/ (x < 0 /\ y <= 0) \/ (0 <= x /\ y < 0)) by lia.
  destruct C as [C|[C|[C|C]]].
  - exists 0%nat, x, y. split; [lia|]. split; [reflexivity|]. split; [lia|]. split; [lia|exact O].
  - exists 1%nat, y, (- x). assert (E : (x, y) = rotk 1 (y, - x)) by (unfold rotk, rot; cbn [fst snd]; f_equal; lia).
    split; [lia|]. split; [exact E|]. split; [lia|]. split; [lia|]. rewrite E in O. now apply on_ring_rotk in O.
  - exists 2%nat, (- x), (- y). assert (E : (x, y) = rotk 2 (- x, - y)) by (unfold rotk, rot; cbn [fst snd]; f_equal; lia).
    split; [lia|]. split; [exact E|]. split; [lia|]. split; [lia|]. rewrite E in O. now apply on_ring_rotk in O.
  - exists 3%nat, (- y), x. assert (E : (x, y) = rotk 3 (- y, x)) by (unfold rotk, rot; cbn [fst snd]; f_equal; lia).
    split; [lia|]. split; [exact E|]. split; [lia|]. split; [lia|]. rewrite E in O. now apply on_ring_rotk in O.
Qed.

Definition rank (p : idx) : Z :=
  let (x, y) := p in
  if (0 <? x) && (0 <=? y) then y - x + d
  else if (x <=? 0) && (0 <? y) then 2 * d + (- x - y + d)
  else if (x <? 0) && (y <=? 0) then 4 * d + (x - y + d)
  else 6 * d + (x + y + d).

Lemma rank_rotk k x y : (k < 4)%nat -> 1 <= x -> 0 <= y -> rank (rotk k (x, y)) = 2 * d * Z.of_nat k + (y - x + d).
Proof.
  intros Hk Hx Hy. destruct k as [|[|[|[|k]]]]; [| | | |lia]; unfold rotk, rot, rank; cbn [fst snd].
  - destruct (Z.ltb_spec 0 x), (Z.leb_spec 0 y); cbn [andb]; lia.
  - destruct (Z.ltb_spec 0 (- y)), (Z.leb_spec 0 x), (Z.leb_spec (- y) 0), (Z.ltb_spec 0 x); cbn [andb]; lia.
  - destruct (Z.ltb_spec 0 (- x)), (Z.leb_spec 0 (- y)), (Z.leb_spec (- x) 0), (Z.ltb_spec 0 (- y)), (Z.ltb_spec (- x) 0), (Z.leb_spec (- y) 0); cbn [andb]; lia.
  - destruct (Z.ltb_spec 0 (- - y)), (Z.leb_spec 0 (- x)), (Z.leb_spec (- - y) 0), (Z.ltb_spec 0 (- x)), (Z.ltb_spec (- - y) 0), (Z.leb_spec (- x) 0); cbn [andb]; lia.
Qed.

Lemma ring_final : exists l, ring d = Ok l /\ NoDup l /\ forall p, In p l <-> on_ring d p.
Proof.
  unfold ring. apply (walk_final d (on_ring d) rank).
  - unfold on_ring. cbn [fst snd]. nia.
  - intros p O. destruct (quadrants p O) as (k & x & y & Hk & -> & Hx & Hy & O').
    rewrite rank_rotk by auto. destruct (quadrant_bounds x y O' ltac:(lia) Hy). nia.
  - intros p O. destruct (quadrants p O) as (k & x & y & Hk & -> & Hx & Hy & O').
    rewrite step_rotk by auto. destruct (q_step x y Hx Hy O') as (A & B & C & D & F & G).
    destruct (ring_step d (x, y)) as [x' y']. cbn [fst snd] in *.
    split; [now apply on_ring_rotk|]. rewrite rank_rotk by auto.
    destruct (Z.eq_dec x' 0) as [->|NX].
    + apply axis' in A; [|lia]. subst y'. replace (0, d) with (rot (d, 0)) by (unfold rot; cbn; f_equal; lia).
      rewrite rotk_rot. destruct (Nat.eq_dec k 3) as [->|NK]; [left; apply rot4|right].
      rewrite rank_rotk by lia. nia.
    + right. rewrite rank_rotk by lia. lia.
  - intros p O NE. destruct (quadrants p O) as (k & x & y & Hk & -> & Hx & Hy & O').
    destruct (Z.eq_dec y 0) as [->|NY].
    + apply axis in O'; [|lia]. subst x. destruct k as [|k]; [cbn in NE; contradiction|].
      destruct top_pred as [T1 T2]. exists (rotk k (1, d)). split; [now apply on_ring_rotk|]. split.
      * rewrite step_rotk, T2 by auto. replace (0, d) with (rot (d, 0)) by (unfold rot; cbn; f_equal; lia). apply rotk_rot.
      * rewrite !rank_rotk by lia. nia.
    + destruct (q_pred x y Hx ltac:(lia) O') as (x' & y' & A & B & C & D & F).
      exists (rotk k (x', y')). split; [now apply on_ring_rotk|]. split; [now rewrite step_rotk, D|].
      rewrite !rank_rotk by lia. lia.
Qed.
End Quadrant.
