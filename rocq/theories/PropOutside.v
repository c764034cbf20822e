(** Property C93: submap iterators over any region, in particular those that move reports. *)
From Coq Require Import ZArith QArith String List Bool Lia.
From Verif Require Import Base BaseLemmas Mat GridMapMath GridIter CostMap Spec GeoLemmas CoreProofs CoreProofs2 IterProofs MoveProofs Samples.
Import ListNotations.
Open Scope Z_scope.

Section Outside.
Context {E : Env}.

(** The buffer index of cell [w] of a window, wherever the window ends. *)
Definition any_cell (n s tl w : idx) : idx :=
  if idx_eqb s (0, 0) then (fst tl + fst w, snd tl + snd w) else window_cell n s tl w.

Lemma any_wrap n s tl w : in_range n s -> in_range n tl ->
  wrap_index (fst (unwrap_index tl n s) + fst w, snd (unwrap_index tl n s) + snd w) n s = any_cell n s tl w.
Proof.
  intros Hs Ht. assert (0 < fst n /\ 0 < snd n) as [N0 N1] by (destruct Hs; lia).
  unfold any_cell, wrap_index, unwrap_index. destruct (idx_eqb s (0, 0)); [reflexivity|]. cbn [fst snd].
  rewrite !wrap1_mod by lia. unfold window_cell. f_equal; rewrite <- Z.add_assoc, Zplus_mod_idemp_l; f_equal; lia.
Qed.

Definition any_list (n s tl sn : idx) : list (idx * idx) :=
  map (fun k => (any_cell n s tl (kth sn k), kth sn k)) (zseq (fst sn * snd sn)).

Lemma sub_visits_any n s tl sn : in_range n s -> in_range n tl -> 0 < fst sn -> 0 < snd sn ->
  sub_visits n s tl sn = Ok (any_list n s tl sn).
Proof.
  intros Hs Ht H1 H2.
  assert (0 < fst n /\ 0 < snd n) as [N0 N1] by (destruct Hs; lia).
  assert (0 < fst sn * snd sn) by nia.
  pose (st := fun k => SubIter n s sn tl (any_cell n s tl (kth sn k)) (kth sn k) false).
  unfold sub_visits.
  assert (sub_iter_new n s tl sn = st 0) as ->.
  { unfold st, sub_iter_new. unfold kth. rewrite Z.div_0_l, Z.mod_0_l by lia. f_equal.
    unfold any_cell, window_cell; cbn [fst snd]. destruct Ht. destruct tl; cbn [fst snd] in *.
    rewrite !Z.add_0_r, !Z.mod_small by lia. now destruct (idx_eqb s (0, 0)). }
  unfold any_list, zseq.
  rewrite (run_seq sb_past (fun it => (sb_index it, sb_sindex it)) sub_iter_next st (Z.to_nat (fst sn * snd sn))).
  - reflexivity.
  - unfold grid_fuel; lia.
  - lia.
  - intros; reflexivity.
  - intros k Hk1 Hk2. unfold st, sub_iter_next, increment_submap. cbn [sb_sindex sb_index sb_sstart sb_ssize sb_size sb_start].
    rewrite kth_next by auto.
    assert (in_range sn (kth sn (k + 1))) as R by (apply kth_in_range; lia).
    rewrite (proj2 (index_in_range_iff _ _)) by auto. cbn [negb].
    rewrite any_wrap by auto. reflexivity.
  - unfold st, sub_iter_next, increment_submap. cbn [sb_sindex sb_index sb_sstart sb_ssize sb_size sb_start].
    rewrite kth_next by auto. rewrite kth_out by lia. reflexivity.
Qed.

Lemma any_list_spec n s tl sn : 0 < fst sn -> 0 < snd sn ->
  (forall i w, In (i, w) (any_list n s tl sn) <-> in_range sn w /\ i = any_cell n s tl w) /\
  (forall k i w, nth_error (any_list n s tl sn) k = Some (i, w) -> fst w * snd sn + snd w = Z.of_nat k) /\
  Z.of_nat (length (any_list n s tl sn)) = fst sn * snd sn.
Proof.
  intros H1 H2. split; [|split].
  - intros i w. unfold any_list. rewrite in_map_iff. split.
    + intros (k & Hk & Hin). injection Hk as <- <-. apply In_zseq in Hin. split; auto. apply kth_in_range; lia.
    + intros [Hw ->]. exists (fst w * snd sn + snd w). rewrite kth_inv by auto. split; auto.
      apply In_zseq. destruct Hw; nia.
  - intros k i w Hk. unfold any_list in Hk. rewrite nth_error_map' in Hk.
    destruct (nth_error (zseq (fst sn * snd sn)) k) as [z|] eqn:Hz; [|discriminate].
    assert ((k < Z.to_nat (fst sn * snd sn))%nat) as Hk'.
    { rewrite <- zseq_length. apply nth_error_Some. congruence. }
    replace k with (Z.to_nat (Z.of_nat k)) in Hz by lia. rewrite zseq_nth in Hz by lia. injection Hz as <-.
    injection Hk as _ <-. now apply kth_lin.
  - unfold any_list. rewrite map_length, zseq_length. nia.
Qed.

(** A region inside the buffer is never wrapped. *)
Lemma region_cell n s tl sn w : in_range n tl -> fst tl + fst sn <= fst n -> snd tl + snd sn <= snd n -> in_range sn w ->
  any_cell n s tl w = (fst tl + fst w, snd tl + snd w).
Proof.
  intros [A B] C D [F G]. unfold any_cell, window_cell. destruct (idx_eqb s (0, 0)); [reflexivity|].
  now rewrite !Z.mod_small by lia.
Qed.

End Outside.

(** A window of at least one cell that starts in the map, wherever it ends: one step for each of
    its cells, row by row. Over a map whose start index is (0, 0), what sticks out is
    outside the buffer; over a moved map it comes back in on the opposite side. *)
Theorem C93_any : forall (E : Env) n s tl sn, in_range n s -> in_range n tl -> 0 < fst sn -> 0 < snd sn ->
  exists vs, sub_visits n s tl sn = Ok vs /\ Z.of_nat (length vs) = fst sn * snd sn /\
    (forall k i w, nth_error vs k = Some (i, w) -> fst w * snd sn + snd w = Z.of_nat k) /\
    (forall i w, In (i, w) vs <-> in_range sn w /\
       ((s = (0, 0) /\ i = (fst tl + fst w, snd tl + snd w)) \/
        (s <> (0, 0) /\ i = ((fst tl + fst w) mod fst n, (snd tl + snd w) mod snd n)))).
Proof.
  intros E n s tl sn Hs Ht H1 H2. exists (any_list n s tl sn). split; [now apply sub_visits_any|].
  destruct (any_list_spec n s tl sn H1 H2) as (A & B & C). split; [exact C|]. split; [exact B|].
  intros i w. rewrite A. unfold any_cell, window_cell. destruct (idx_eqb s (0, 0)) eqn:Q.
  - apply idx_eqb_eq in Q. intuition.
  - assert (s <> (0, 0)) by (intros ->; discriminate). intuition.
Qed.
Print Assumptions C93_any.

(** A window without cells is visited once, at its first index. *)
Theorem C93_empty : forall (E : Env) n s tl sn, fst sn <= 0 \/ snd sn <= 0 -> sub_visits n s tl sn = Ok [(tl, (0, 0))].
Proof.
  intros E n s tl sn H. unfold sub_visits, grid_fuel. cbn [run]. cbn [sub_iter_new sb_past].
  assert (N : sub_iter_next (sub_iter_new n s tl sn) = SubIter n s sn tl tl (0, 0) true).
  { unfold sub_iter_next, sub_iter_new, increment_submap. cbn [sb_sindex sb_index sb_sstart sb_ssize sb_size sb_start fst snd].
    match goal with |- context [index_in_range ?x sn] => assert (O : index_in_range x sn = false) end.
    { change (index_in_range (if 0 + 1 <? snd sn then (0, 0 + 1) else (0 + 1, 0)) sn = false).
      destruct (index_in_range _ sn) eqn:K; auto. apply index_in_range_iff in K. destruct (Z.ltb_spec (0 + 1) (snd sn)); destruct K as [K1 K2]; cbn [fst snd] in *; lia. }
    rewrite O. reflexivity. }
  rewrite N. reflexivity.
Qed.
Print Assumptions C93_empty.

(** ** The regions of a move *)

Definition in_buffer (n : idx) (r : region) : Prop :=
  in_range n (rstart r) /\ 0 < fst (rsize r) /\ 0 < snd (rsize r) /\
  fst (rstart r) + fst (rsize r) <= fst n /\ snd (rstart r) + snd (rsize r) <= snd n.

Definition keeps {A} (c : M cmap A) : Prop := forall m a m', c m = Ret a m' -> size m' = size m /\ start m' = start m.

Lemma keeps_block i j h w l : keeps (clear_block i j h w l).
Proof.
  intros m a m'. unfold clear_block. destruct (aget (data m) l); [|discriminate]. destruct (mfill _ _ _ _ _ _); [|discriminate].
  intros H. injection H as <- <-. auto.
Qed.
Lemma keeps_mfor {A} (f : A -> M cmap unit) : (forall x, keeps (f x)) -> forall l, keeps (mfor l f).
Proof.
  intros K. induction l as [|x l IH]; intros m a m'; cbn [mfor].
  - intros H. injection H as <- <-. auto.
  - destruct (f x m) as [u m1| |] eqn:F; try discriminate. intros H. apply K in F. apply IH in H. destruct F, H. split; congruence.
Qed.
Lemma keeps_clr (rows : bool) a c : keeps ((if rows then clearRows else clearCols) a c).
Proof. intros m x m'. destruct rows; apply keeps_mfor; intros; apply keeps_block. Qed.

Lemma axis_regions {E : Env} (rows : bool) k m rs m' : 0 < fst (size m) -> 0 < snd (size m) -> move_axis rows k m = Ret rs m' ->
  size m' = size m /\ start m' = start m /\ forall r, In r rs -> in_buffer (size m) r.
Proof.
  intros H0 H1. unfold move_axis. cbv zeta. set (n := if rows then fst (size m) else snd (size m)).
  assert (Hn : 0 < n) by (unfold n; destruct rows; auto).
  destruct (Z.eqb_spec k 0); [intros H; injection H as <- <-; split; auto; split; auto; intros r []|].
  destruct (Z.leb_spec n (Z.abs k)).
  { unfold bind, clearAll, modify, ret. intros HH. injection HH as <- <-. cbn. split; auto. split; auto.
    intros r [<-|[]]. unfold in_buffer, in_range; cbn. lia. }
  set (a := bound1 _ n). assert (Ha : 0 <= a < n) by now apply bound1_range.
  assert (RG : forall c, 0 < c -> forall x, 0 <= x -> x + c <= n -> in_buffer (size m) ((if rows then row_region m else col_region m) x c)).
  { intros c Hc x Hx Hxc. unfold in_buffer, in_range, n in *. destruct rows; cbn; lia. }
  destruct (Z.leb_spec (a + Z.abs k) n).
  - unfold bind. destruct ((if rows then clearRows else clearCols) a (Z.abs k) m) as [u m1| |] eqn:C; try discriminate.
    unfold ret. intros HH. injection HH as <- <-. destruct (keeps_clr _ _ _ _ _ _ C). split; auto. split; auto.
    intros r [<-|[]]. apply RG; lia.
  - unfold bind. destruct ((if rows then clearRows else clearCols) a (n - a) m) as [u m1| |] eqn:C; try discriminate.
    destruct ((if rows then clearRows else clearCols) 0 (Z.abs k - (n - a)) m1) as [u2 m2| |] eqn:C2; try discriminate.
    unfold ret. intros HH. injection HH as <- <-. destruct (keeps_clr _ _ _ _ _ _ C), (keeps_clr _ _ _ _ _ _ C2).
    split; [congruence|]. split; [congruence|]. intros r [<-|[<-|[]]]; apply RG; lia.
Qed.

(** A loop over a region that move reports visits the cells of that region, each once. *)
Theorem C93_regions : forall (E : Env) p m b rs m', 0 < fst (size m) -> 0 < snd (size m) -> move p m = Ret (b, rs) m' ->
  forall r, In r rs -> exists vs, sub_visits (size m') (start m') (rstart r) (rsize r) = Ok vs /\ NoDup (map fst vs) /\
    forall i, In i (map fst vs) <-> region_has r i.
Proof.
  intros E p m b rs m' H0 H1. unfold move. cbv zeta. unfold bind.
  destruct (move_axis true _ m) as [r0 m0| |] eqn:A; try discriminate.
  destruct (move_axis false _ m0) as [r1 m1| |] eqn:B; try discriminate.
  destruct (axis_regions _ _ _ _ _ H0 H1 A) as (S0 & T0 & R0). rewrite <- S0 in H0, H1.
  destruct (axis_regions _ _ _ _ _ H0 H1 B) as (S1 & T1 & R1). rewrite S0 in S1, R1, H0, H1.
  match goal with |- (if ?c then _ else _) = _ -> _ => destruct c; [discriminate|] end.
  intros H. injection H as _ <- <-. cbn [size start set_pos set_start]. rewrite S1.
  intros r Hr. assert (IB : in_buffer (size m) r) by (apply in_app_or in Hr; destruct Hr; auto).
  destruct IB as (P & Q0 & Q1 & L0 & L1).
  match goal with |- context [sub_visits _ ?s _ _] => set (s' := s) end.
  assert (Hs : in_range (size m) s') by (unfold s', in_range; cbn [fst snd]; split; apply bound1_range; auto).
  exists (any_list (size m) s' (rstart r) (rsize r)). split; [now apply sub_visits_any|].
  destruct (any_list_spec (size m) s' (rstart r) (rsize r) Q0 Q1) as (I & _ & _). split.
  - unfold any_list. rewrite map_map. cbn [fst]. apply NoDup_map_inj; [|apply zseq_NoDup].
    intros x y Hx Hy. apply In_zseq in Hx, Hy.
    rewrite !(region_cell (size m) s' (rstart r) (rsize r)) by (auto; apply kth_in_range; lia).
    intros K. apply pair_equal_spec in K as [K0 K1]. pose proof (kth_lin (rsize r) x Q1). pose proof (kth_lin (rsize r) y Q1).
    assert (fst (kth (rsize r) x) = fst (kth (rsize r) y)) by lia. assert (snd (kth (rsize r) x) = snd (kth (rsize r) y)) by lia. congruence.
  - intros i. rewrite in_map_iff. unfold region_has. split.
    + intros ((i', w) & <- & Hin). apply I in Hin as [W ->]. rewrite (region_cell _ _ _ (rsize r)) by auto. destruct W. cbn [fst snd]. lia.
    + intros [X Y]. exists (i, (fst i - fst (rstart r), snd i - snd (rstart r))). split; [reflexivity|]. apply I.
      assert (W : in_range (rsize r) (fst i - fst (rstart r), snd i - snd (rstart r))) by (unfold in_range; cbn [fst snd]; lia).
      split; [exact W|]. rewrite (region_cell _ _ _ (rsize r)) by auto. cbn [fst snd]. destruct i; cbn [fst snd]. f_equal; lia.
Qed.
Print Assumptions C93_regions.

(** The moved sample of C16: both regions it reports, and a window that sticks out of a
    5 x 4 map, with and without a start index. *)
Example C93_case : exists rs m', move (E := exact_wrap) (0, -1#1)%Q sample = Ret (true, rs) m' /\
  map (fun r => sub_visits (size m') (start m') (rstart r) (rsize r)) rs =
  [Ok [((1, 0), (0, 0)); ((1, 1), (0, 1)); ((1, 2), (0, 2)); ((1, 3), (0, 3)); ((2, 0), (1, 0)); ((2, 1), (1, 1)); ((2, 2), (1, 2)); ((2, 3), (1, 3))];
   Ok [((0, 0), (0, 0)); ((0, 1), (0, 1)); ((1, 0), (1, 0)); ((1, 1), (1, 1)); ((2, 0), (2, 0)); ((2, 1), (2, 1)); ((3, 0), (3, 0)); ((3, 1), (3, 1)); ((4, 0), (4, 0)); ((4, 1), (4, 1))]] /\
  sub_visits (5, 4) (0, 0) (4, 3) (2, 1) = Ok [((4, 3), (0, 0)); ((5, 3), (1, 0))] /\
  sub_visits (5, 4) (1, 0) (4, 3) (2, 1) = Ok [((4, 3), (0, 0)); ((0, 3), (1, 0))].
Proof.
  eexists _, _. split; [vm_compute; reflexivity|]. conj_vm.
Qed.
