(** Property C77: the costmaps of the demo from_ros_costmaps, filled with stripes. *)
From Coq Require Import ZArith QArith Qround Qabs Qfield String List Bool Lia Lqa.
From Verif Require Import Base Mat GridMapMath CostMap Converter Costmap2D CostmapDemo BaseLemmas Spec MessageProofs FloatLemmas FloatMono DoubleSpec DoubleGeo DoubleMap CostmapProofs.
Import ListNotations.
Open Scope Z_scope.

(** ** One stripe *)

Lemma rod_mono (E : Env) : real_or_double E -> forall x y, (x <= y)%Q -> (rnd x <= rnd y)%Q.
Proof. intros [X|[p ->]] x y H; [now rewrite (X x), (X y)|]. apply rne_mono; [lia|exact H]. Qed.

(** Two roundings of a number below 253. *)
Lemma two_roundings (E : Env) (N : Near E) a n : 0 < a < n ->
  (0 <= fmul (fdiv (inject_Z a) (inject_Z n)) 253)%Q /\
  (Qabs (fmul (fdiv (inject_Z a) (inject_Z n)) 253 - 253 * (inject_Z a / inject_Z n)) <= pow2 (-(43)))%Q.
Proof.
  intros A. unfold fmul, fdiv. set (q := (inject_Z a / inject_Z n)%Q).
  assert (Q0 : (0 <= q)%Q). { apply Qle_shift_div_l; [unfold Qlt; cbn; lia|]. rewrite Qmult_0_l. unfold Qle; cbn; lia. }
  assert (Q1 : (q <= 1)%Q). { apply Qle_shift_div_r; [unfold Qlt; cbn; lia|]. rewrite Qmult_1_l, <- Zle_Qle. lia. }
  pose proof (N q) as Nq. rewrite (Qabs_pos q Q0) in Nq. apply Qabs_Qle_condition in Nq.
  set (f := rnd q) in *. assert (F0 : (0 <= f)%Q). { change ulp with (1 # 9007199254740992)%Q in Nq. lra. }
  pose proof (N (f * 253)%Q) as Nt. rewrite (Qabs_pos (f * 253)) in Nt by lra. apply Qabs_Qle_condition in Nt.
  set (t := rnd (f * 253)%Q) in *. change ulp with (1 # 9007199254740992)%Q in Nq, Nt. change (pow2 (-(43))) with (1 # 8796093022208)%Q.
  clearbody q f t. split; [lra|]. apply Qabs_Qle_condition. lra.
Qed.

Lemma stripe_ok (E : Env) (X : real_or_double E) n x : 0 <= x -> x + 1 < n -> n < 2 ^ 32 ->
  exists v, stripe n x = Ok v /\ 0 <= v <= 252 /\ v * n <= 253 * (x + 1) <= (v + 1) * n /\
    (Exact E -> 253 * (x + 1) < (v + 1) * n).
Proof.
  intros X0 X1 NB. unfold stripe, u32. rewrite Z.mod_small by lia. set (a := x + 1). assert (A : 0 < a < n) by lia.
  destruct (two_roundings E (near_real E X) a n A) as [T0 T1]. apply Qabs_Qle_condition in T1.
  assert (EX : Exact E -> (fmul (fdiv (inject_Z a) (inject_Z n)) 253 == 253 * (inject_Z a / inject_Z n))%Q).
  { intros XE. unfold fmul, fdiv. rewrite (XE (rnd (inject_Z a / inject_Z n) * 253)%Q), (XE (inject_Z a / inject_Z n)%Q). ring. }
  set (t := fmul (fdiv (inject_Z a) (inject_Z n)) 253) in *. clearbody t.
  assert (NP : (0 < inject_Z n)%Q) by (unfold Qlt; cbn; lia).
  assert (QE : (253 * (inject_Z a / inject_Z n) * inject_Z n == inject_Z (253 * a))%Q).
  { rewrite inject_Z_mult. change (inject_Z 253) with 253%Q. field. lra. }
  set (q := (253 * (inject_Z a / inject_Z n))%Q) in *. clearbody q.
  pose proof (Qfloor_le t) as FL. pose proof (Qlt_floor t) as FU. rewrite inject_Z_plus in FU. change (inject_Z 1) with 1%Q in FU.
  unfold to_uchar. rewrite Qtrunc_nonneg by exact T0. set (v := Qfloor t) in *. clearbody v.
  change (pow2 (-(43))) with (1 # 8796093022208)%Q in T1.
  assert (SM : (inject_Z n * (1 # 8796093022208) < 1)%Q) by (unfold Qlt; cbn; lia).
  assert (V0 : 0 <= v). { assert (K : (inject_Z 0 < inject_Z (v + 1))%Q) by (rewrite inject_Z_plus; change (inject_Z 1) with 1%Q; change (inject_Z 0) with 0%Q; lra). rewrite <- Zlt_Qlt in K. lia. }
  assert (B0 : v * n <= 253 * a).
  { assert (K : (inject_Z (v * n) < inject_Z (253 * a + 1))%Q).
    { rewrite inject_Z_plus, inject_Z_mult, <- QE. change (inject_Z 1) with 1%Q.
      assert ((inject_Z v - q) * inject_Z n <= (1 # 8796093022208) * inject_Z n)%Q by (apply Qmult_le_compat_r; lra). lra. }
    rewrite <- Zlt_Qlt in K. lia. }
  assert (B1 : 253 * a <= (v + 1) * n).
  { assert (K : (inject_Z (253 * a) < inject_Z ((v + 1) * n + 1))%Q).
    { rewrite <- QE, inject_Z_plus, inject_Z_mult, inject_Z_plus. change (inject_Z 1) with 1%Q.
      assert ((q - (inject_Z v + 1)) * inject_Z n <= (1 # 8796093022208) * inject_Z n)%Q by (apply Qmult_le_compat_r; lra). lra. }
    rewrite <- Zlt_Qlt in K. lia. }
  assert (v <= 252) by nia.
  assert ((0 <=? v) && (v <=? 255) = true) as -> by lia. exists v. split; [reflexivity|]. split; [lia|]. split; [lia|].
  intros XE. specialize (EX XE). assert (K : (inject_Z (253 * a) < inject_Z ((v + 1) * n))%Q).
  { rewrite <- QE, inject_Z_mult, inject_Z_plus. change (inject_Z 1) with 1%Q. apply Qmult_lt_compat_r; [exact NP|lra]. }
  rewrite <- Zlt_Qlt in K. exact K.
Qed.

Lemma stripe_mono (E : Env) (X : real_or_double E) n x y v w : 0 <= x <= y -> y + 1 < n -> n < 2 ^ 32 ->
  stripe n x = Ok v -> stripe n y = Ok w -> v <= w.
Proof.
  intros H Y NB S T. unfold stripe, u32, to_uchar in S, T. rewrite Z.mod_small in S, T by lia.
  destruct (two_roundings E (near_real E X) (x + 1) n ltac:(lia)) as [T0 _].
  destruct (two_roundings E (near_real E X) (y + 1) n ltac:(lia)) as [T1 _].
  assert (LE : (fmul (fdiv (inject_Z (x + 1)) (inject_Z n)) 253 <= fmul (fdiv (inject_Z (y + 1)) (inject_Z n)) 253)%Q).
  { unfold fmul, fdiv. apply (rod_mono E X). apply Qmult_le_compat_r; [|discriminate]. apply (rod_mono E X).
    unfold Qdiv. apply Qmult_le_compat_r; [rewrite <- Zle_Qle; lia|]. apply Qinv_le_0_compat. unfold Qle; cbn; lia. }
  rewrite Qtrunc_nonneg in S, T by assumption. apply Qfloor_resp_le in LE.
  destruct (_ && _) in S; [|discriminate]. destruct (_ && _) in T; [|discriminate]. injection S as <-. injection T as <-. exact LE.
Qed.

(** ** Rows *)

(** [d'] is [d] with the cells of row [y] from 0 up to [m] set by [s]. *)
Definition row_set (n y m : Z) (s : Z -> Z) (d d' : list Z) : Prop :=
  length d' = length d /\
  forall j, 0 <= j -> nth_error d' (Z.to_nat j) =
    if (y * n <=? j) && (j <? y * n + m) then Some (s (j - y * n)) else nth_error d (Z.to_nat j).

Definition with_costs (k : costmap2d) (d : list Z) : costmap2d := Costmap2D (k_size k) (k_resn k) (k_origin k) d.

Lemma setCost_ok k x y v : Z.of_nat (length (k_char k)) = fst (k_size k) * snd (k_size k) -> fst (k_size k) * snd (k_size k) < 2 ^ 32 ->
  in_range (k_size k) (x, y) -> setCost x y v k = Ret tt (with_costs k (lupd (k_char k) (Z.to_nat (y * fst (k_size k) + x)) v)).
Proof.
  intros L B [[A0 A1] [A2 A3]]. cbn [fst snd] in A0, A1, A2, A3. unfold setCost, cell_index, u32.
  assert (y * fst (k_size k) + x < fst (k_size k) * snd (k_size k)) by nia. rewrite Z.mod_small by nia.
  destruct (Z.ltb_spec (y * fst (k_size k) + x) (Z.of_nat (length (k_char k)))); [reflexivity|lia].
Qed.

Lemma row_more n y m s d d' v : 0 <= y -> 0 <= n -> 0 <= m -> (Z.to_nat (y * n + m) < length d)%nat -> v = s m ->
  row_set n y m s d d' -> row_set n y (m + 1) s d (lupd d' (Z.to_nat (y * n + m)) v).
Proof.
  intros Y N M B -> [L H]. split; [rewrite lupd_length; exact L|]. intros j J. rewrite nth_error_lupd, L.
  assert (YN : 0 <= y * n) by nia.
  destruct (Nat.eqb_spec (Z.to_nat j) (Z.to_nat (y * n + m))) as [e|e].
  - assert (j = y * n + m) as -> by lia. assert (Nat.ltb (Z.to_nat (y * n + m)) (length d) = true) as -> by (apply Nat.ltb_lt; exact B).
    replace ((y * n <=? y * n + m) && (y * n + m <? y * n + (m + 1))) with true by lia. do 2 f_equal. lia.
  - rewrite H by exact J. assert (j <> y * n + m) by lia.
    replace ((y * n <=? j) && (j <? y * n + (m + 1))) with ((y * n <=? j) && (j <? y * n + m)) by lia. reflexivity.
Qed.

(** What a row looks like. *)
Definition row_cost (n : Z) (s : Z -> Z) (x : Z) : Z :=
  if x =? n - 1 then 255 else if x =? n - 2 then 254 else s x.

Lemma fill_row_ok (E : Env) s k y : let n := fst (k_size k) in
  Z.of_nat (length (k_char k)) = n * snd (k_size k) -> n * snd (k_size k) < 2 ^ 32 -> 2 <= n < 2 ^ 32 -> 0 <= y < snd (k_size k) ->
  (forall x, 0 <= x < n - 2 -> stripe n x = Ok (s x)) ->
  exists d, fill_row y k = Ret tt (with_costs k d) /\ row_set n y n (row_cost n s) (k_char k) d.
Proof.
  intros n L B N Y S. unfold fill_row. fold n.
  assert (LOOP : forall m, 0 <= m -> m <= n - 2 -> exists d,
    mfor (zseq m) (fun x => bind (lift (stripe n x)) (fun v => setCost x y v)) k = Ret tt (with_costs k d) /\ row_set n y m (row_cost n s) (k_char k) d).
  { intros m M0. pattern m. apply Zlt_0_ind; [|exact M0]. clear m M0. intros m IH M0 M. destruct (Z.eq_dec m 0) as [->|NZ].
    - exists (k_char k). split; [cbn [zseq zseq_aux Z.to_nat mfor]; unfold ret; destruct k; reflexivity|]. split; [reflexivity|]. intros j J.
      replace ((y * n <=? j) && (j <? y * n + 0)) with false by lia. reflexivity.
    - destruct (IH (m - 1) ltac:(lia) ltac:(lia)) as (d & F & R). replace m with (m - 1 + 1) by lia. rewrite zseq_snoc by lia.
      rewrite mfor_app, F. cbn [mfor]. unfold bind, lift. rewrite S by lia.
      rewrite setCost_ok; cbn [with_costs k_size k_char]; fold n; auto; [|destruct R as [-> _]; auto|split; cbn [fst snd]; lia].
      cbn [mfor]. unfold ret. eexists. split; [reflexivity|]. apply row_more; auto; try lia; try nia.
      unfold row_cost. destruct (Z.eqb_spec (m - 1) (n - 1)); [lia|]. destruct (Z.eqb_spec (m - 1) (n - 2)); [lia|]. reflexivity. }
  unfold u32. rewrite !Z.mod_small by lia. destruct (LOOP (n - 2) ltac:(lia) ltac:(lia)) as (d & F & R).
  unfold bind at 1. rewrite F. unfold bind.
  rewrite setCost_ok; cbn [with_costs k_size k_char k_resn k_origin]; fold n; auto; [|destruct R as [-> _]; auto|split; cbn [fst snd]; lia].
  rewrite setCost_ok; cbn [with_costs k_size k_char k_resn k_origin]; fold n; auto; [|rewrite lupd_length; destruct R as [-> _]; auto|split; cbn [fst snd]; lia].
  eexists. split; [reflexivity|].
  assert (R1 := row_more n y (n - 2) (row_cost n s) (k_char k) d LETHAL_OBSTACLE ltac:(lia) ltac:(lia) ltac:(lia) ltac:(nia)).
  assert (R2 := fun d' => row_more n y (n - 1) (row_cost n s) (k_char k) d' NO_INFORMATION ltac:(lia) ltac:(lia) ltac:(lia) ltac:(nia)).
  replace (n - 2 + 1) with (n - 1) in R1 by lia. replace (n - 1 + 1) with n in R2 by lia. apply R2; [|apply R1; [|exact R]].
  - unfold row_cost. now rewrite Z.eqb_refl.
  - unfold row_cost. rewrite Z.eqb_refl. destruct (Z.eqb_spec (n - 2) (n - 1)); [lia|reflexivity].
Qed.

Lemma fill_ok (E : Env) s k : let n := fst (k_size k) in
  Z.of_nat (length (k_char k)) = n * snd (k_size k) -> n * snd (k_size k) < 2 ^ 32 -> 2 <= n -> 0 < snd (k_size k) ->
  (forall x, 0 <= x < n - 2 -> stripe n x = Ok (s x)) ->
  exists d, fill k = Ret tt (with_costs k d) /\ length d = length (k_char k) /\
    forall x y, in_range (k_size k) (x, y) -> nth_error d (Z.to_nat (y * n + x)) = Some (row_cost n s x).
Proof.
  intros n L B N Y S. unfold fill.
  assert (LOOP : forall m, 0 <= m -> m <= snd (k_size k) -> exists d, mfor (zseq m) fill_row k = Ret tt (with_costs k d) /\ length d = length (k_char k) /\
    forall x y, 0 <= x < n -> 0 <= y < m -> nth_error d (Z.to_nat (y * n + x)) = Some (row_cost n s x)).
  { intros m M0. pattern m. apply Zlt_0_ind; [|exact M0]. clear m M0. intros m IH M0 M. destruct (Z.eq_dec m 0) as [->|NZ].
    - exists (k_char k). split; [cbn [zseq zseq_aux Z.to_nat mfor]; unfold ret; destruct k; reflexivity|]. split; [reflexivity|]. lia.
    - destruct (IH (m - 1) ltac:(lia) ltac:(lia)) as (d & F & LD & R). replace m with (m - 1 + 1) by lia. rewrite zseq_snoc by lia.
      rewrite mfor_app, F. cbn [mfor]. unfold bind.
      destruct (fill_row_ok E s (with_costs k d) (m - 1)) as (d' & F' & LD' & R'); cbn [with_costs k_size k_char]; fold n; auto; try nia.
      rewrite F'. cbn [mfor]. unfold ret. exists d'. cbn [with_costs k_size k_resn k_origin k_char] in *. fold n in R'. split; [reflexivity|]. split; [congruence|].
      intros x y Hx Hy. rewrite R' by nia. destruct (Z.eq_dec y (m - 1)) as [->|NE].
      + replace (((m - 1) * n <=? (m - 1) * n + x) && ((m - 1) * n + x <? (m - 1) * n + n)) with true by lia. do 2 f_equal. lia.
      + assert (y * n + x < (m - 1) * n) by nia.
        replace (((m - 1) * n <=? y * n + x) && (y * n + x <? (m - 1) * n + n)) with false by lia. apply R; lia. }
  destruct (LOOP (snd (k_size k)) ltac:(lia) ltac:(lia)) as (d & F & LD & R). exists d. split; [exact F|]. split; [exact LD|].
  intros x y [H0 H1]. cbn [fst snd] in H0, H1. apply R; lia.
Qed.

(** ** C77 *)

(** Costs of the stripes of a costmap [n] cells wide: from the left they take the
    part 253 (x + 1) / n of the scale, down to the whole number below; then a
    lethal and an unknown column. *)
Theorem C77_stripes : forall E, real_or_double E -> forall k, let n := fst (k_size k) in
  costmap_ok k -> 2 <= n -> n * snd (k_size k) < 2 ^ 32 ->
  exists k' s, fill k = Ret tt k' /\ costmap_ok k' /\ k_size k' = k_size k /\ k_resn k' = k_resn k /\ k_origin k' = k_origin k /\
    (forall y, 0 <= y < snd (k_size k) -> cost_at k' (n - 1, y) unknown /\ cost_at k' (n - 2, y) lethal /\
       forall x, 0 <= x < n - 2 -> cost_at k' (x, y) (s x)) /\
    (forall x, 0 <= x < n - 2 -> 0 <= s x < inscribed /\ s x * n <= 253 * (x + 1) <= (s x + 1) * n /\
       (Exact E -> 253 * (x + 1) < (s x + 1) * n)) /\
    (forall x x', 0 <= x <= x' -> x' < n - 2 -> s x <= s x').
Proof.
  intros E X k n (RP & N0 & N1 & L) N2 B.
  set (s := fun x => match stripe n x with Ok v => v | _ => 0 end).
  assert (NB : n < 2 ^ 32) by nia.
  assert (S : forall x, 0 <= x < n - 2 -> stripe n x = Ok (s x)).
  { intros x Hx. unfold s. destruct (stripe_ok E X n x) as (v & -> & _); auto; lia. }
  destruct (fill_ok E s k) as (d & F & LD & R); auto. exists (with_costs k d), s. split; [exact F|].
  split; [split; [exact RP|]; cbn [with_costs k_size k_char]; rewrite LD; auto|]. do 3 (split; [reflexivity|]).
  fold n in R. split; [|split].
  - intros y Hy. unfold cost_at. cbn [with_costs k_size k_char fst snd]. fold n. repeat split; cbn [fst snd]; fold n; try lia.
    + rewrite R by (split; cbn [fst snd]; fold n; lia). unfold row_cost. now rewrite Z.eqb_refl.
    + rewrite R by (split; cbn [fst snd]; fold n; lia). unfold row_cost. rewrite Z.eqb_refl. destruct (Z.eqb_spec (n - 2) (n - 1)); [lia|reflexivity].
    + rewrite R by (split; cbn [fst snd]; fold n; lia). unfold row_cost. destruct (Z.eqb_spec x (n - 1)); [lia|]. destruct (Z.eqb_spec x (n - 2)); [lia|reflexivity].
  - intros x Hx. destruct (stripe_ok E X n x) as (v & SV & V & BV & XV); try lia. rewrite S in SV by exact Hx. injection SV as ->. unfold inscribed. split; [lia|]. auto.
  - intros x x' Hx Hx'. apply (stripe_mono E X n x x'); try lia; apply S; lia.
Qed.

Lemma zseq_first n : 1 <= n -> exists t, zseq n = 0 :: t.
Proof. intros H. unfold zseq. destruct (Z.to_nat n) eqn:K; [lia|]. cbn [zseq_aux]. eauto. Qed.
Lemma zseq_second n : 2 <= n -> exists t, zseq n = 0 :: 1 :: t.
Proof. intros H. unfold zseq. destruct (Z.to_nat n) as [|[|]] eqn:K; [lia|lia|]. cbn [zseq_aux]. eauto. Qed.

Lemma rod_Z (E : Env) : real_or_double E -> forall k, Z.abs k < 2 ^ 53 -> (rnd (inject_Z k) == inject_Z k)%Q.
Proof. intros [X|[p ->]] k H; [apply X|]. apply rne_Z; [lia|exact H]. Qed.
Lemma rod_comp (E : Env) : real_or_double E -> forall x y, (x == y)%Q -> (rnd x == rnd y)%Q.
Proof. intros [X|[p ->]] x y H; [now rewrite (X x), (X y)|]. now apply rne_comp. Qed.

(** The loop over the columns of a costmap of one column counts from 2^32 - 1; its
    second stripe has no cost. *)
Theorem C77_narrow : forall E, real_or_double E -> forall k, costmap_ok k -> fst (k_size k) = 1 -> snd (k_size k) < 2 ^ 32 -> fill k = Flt BadCast.
Proof.
  intros E X k (RP & N0 & N1 & L) N B. unfold fill. destruct (zseq_first (snd (k_size k)) ltac:(lia)) as [t ->].
  cbn [mfor]. unfold fill_row. rewrite N.
  destruct (zseq_second (u32 (1 - 2)) ltac:(unfold u32; cbn; lia)) as [t' ->]. cbn [mfor].
  assert (V : forall z, 0 <= z < 2 -> Qtrunc (fmul (fdiv (inject_Z (u32 (z + 1))) (inject_Z 1)) 253) = 253 * (z + 1)).
  { intros z Z. unfold u32. rewrite Z.mod_small by lia. rewrite <- (Qtrunc_Z (253 * (z + 1))). apply Qtrunc_comp. unfold fmul, fdiv.
    rewrite <- (rod_Z E X (253 * (z + 1))) by lia. apply (rod_comp E X). rewrite inject_Z_mult, Qmult_comm. change (inject_Z 253) with 253%Q.
    apply Qmult_comp; [reflexivity|]. rewrite <- (rod_Z E X (z + 1)) at 2 by lia. apply (rod_comp E X). change (inject_Z 1) with 1%Q. field. }
  unfold stripe, to_uchar. rewrite !V by lia. cbn [Z.add Z.mul Pos.add Pos.mul Z.leb Z.compare Pos.compare Pos.compare_cont andb].
  unfold bind, lift. rewrite setCost_ok; [|lia|lia|split; cbn [fst snd]; lia]. reflexivity.
Qed.

(** The lines printed by prettyPrint, one for each x. *)
Theorem C77_printed : forall k, costmap_ok k -> fst (k_size k) * snd (k_size k) < 2 ^ 32 ->
  exists ls, pretty_print k = Ok ls /\ Z.of_nat (length ls) = fst (k_size k) /\
    (forall line, In line ls -> Z.of_nat (length line) = snd (k_size k)) /\
    forall x y v, cost_at k (x, y) v -> exists line, nth_error ls (Z.to_nat x) = Some line /\ nth_error line (Z.to_nat y) = Some v.
Proof.
  intros k (RP & N0 & N1 & L) B.
  set (g := fun x y => nth (Z.to_nat (y * fst (k_size k) + x)) (k_char k) 0).
  assert (G : forall x y, in_range (k_size k) (x, y) -> getCost k x y = Ok (g x y)).
  { intros x y [A0 A1]. cbn [fst snd] in A0, A1. unfold getCost, cell_index, u32. assert (y * fst (k_size k) + x < fst (k_size k) * snd (k_size k)) by nia.
    rewrite Z.mod_small by nia. rewrite (nth_error_nth' _ 0) by nia. reflexivity. }
  exists (map (fun x => map (g x) (zseq (snd (k_size k)))) (zseq (fst (k_size k)))). split; [|split; [|split]].
  - unfold pretty_print. apply rmap_ok. intros x Hx. apply In_zseq in Hx. apply rmap_ok. intros y Hy. apply In_zseq in Hy. apply G. split; cbn [fst snd]; lia.
  - rewrite map_length, zseq_length. lia.
  - intros line Hl. apply in_map_iff in Hl as (x & <- & _). rewrite map_length, zseq_length. lia.
  - intros x y v [[A0 A1] V]. cbn [fst snd] in A0, A1, V. eexists. split.
    + rewrite nth_error_map', zseq_nth by lia. reflexivity.
    + rewrite nth_error_map', zseq_nth by lia. cbn [option_map]. unfold g. f_equal. now apply nth_error_nth.
Qed.

(** The costmap of 5 by 2 cells. *)
Example C77_case : let E := binary64 BClamp in let k := Costmap2D (5, 2) (1#2) (0, 0)%Q (repeat 0 10) in
  costmap_ok k /\ real_or_double E /\
  fill k = Ret tt (Costmap2D (5, 2) (1#2) (0, 0)%Q [50; 101; 151; 254; 255; 50; 101; 151; 254; 255]) /\
  pretty_print (Costmap2D (3, 2) (1#2) (0, 0)%Q [84; 254; 255; 84; 254; 255]) = Ok [[84; 84]; [254; 254]; [255; 255]].
Proof.
  cbv zeta. split; [vm_compute; repeat split; reflexivity|]. split; [right; eexists; reflexivity|]. split; vm_compute; reflexivity.
Qed.

(** With doubles a stripe can get the cost below its part of the scale: 253 * 1 / 253
    is 1, but the first stripe of 253 is 0. *)
Theorem C77_strict_refuted : exists n x v, 0 <= x < n - 2 /\ stripe (E := binary64 BClamp) n x = Ok v /\ ~ 253 * (x + 1) < (v + 1) * n.
Proof. exists 253, 0, 0. split; [lia|]. split; [vm_compute; reflexivity|lia]. Qed.
