(** CostMapIterator and SubmapIterator visit every cell of their window once. *)
From Coq Require Import ZArith QArith Qround Qabs String List Bool Lia.
From Coq Require Import ZifyBool.
From Verif Require Import Base Mat GridMapMath GridIter CostMap BaseLemmas Spec GeoLemmas.
Import ListNotations.
Open Scope Z_scope.

Lemma run_seq {I A} (past : I -> bool) (cur : I -> A) (next : I -> I) (st : Z -> I) N :
  forall fuel a, (N < fuel)%nat -> (0 < N)%nat ->
  (forall k, a <= k < a + Z.of_nat N -> past (st k) = false) ->
  (forall k, a <= k -> k + 1 < a + Z.of_nat N -> next (st k) = st (k + 1)) ->
  past (next (st (a + Z.of_nat N - 1))) = true ->
  run past cur next fuel (st a) = Ok (map (fun k => cur (st k)) (zseq_aux a N)).
Proof.
  induction N as [|N IH]; intros fuel a Hf HN H1 H2 H3; [lia|].
  destruct fuel as [|fuel]; [lia|]. simpl. rewrite H1 by lia.
  destruct N as [|N].
  - destruct fuel as [|fuel]; [lia|]. simpl.
    replace (a + Z.of_nat 1 - 1) with a in H3 by lia. rewrite H3. reflexivity.
  - rewrite H2 by lia. rewrite (IH fuel (a + 1)); [reflexivity| lia | lia | | | ].
    + intros; apply H1; lia.
    + intros; apply H2; lia.
    + replace (a + 1 + Z.of_nat (S N) - 1) with (a + Z.of_nat (S (S N)) - 1) by lia. exact H3.
Qed.

(** k-th cell of an n0 x n1 window in row-major order. *)
Definition kth (n : idx) (k : Z) : idx := (k / snd n, k mod snd n).

Lemma kth_in_range n k : 0 < snd n -> 0 <= k < fst n * snd n -> in_range n (kth n k).
Proof.
  intros Hn Hk. unfold in_range, kth; simpl. split.
  - split; [apply Z.div_pos; lia|apply Z.div_lt_upper_bound; lia].
  - apply Z.mod_pos_bound; lia.
Qed.

Lemma kth_inv n u : in_range n u -> kth n (fst u * snd n + snd u) = u.
Proof.
  intros [H1 H2]. unfold kth. destruct u as [a b]; simpl in *.
  rewrite Z.div_add_l, Z.div_small by lia. rewrite (Z.add_comm (a * snd n)), Z.mod_add, Z.mod_small by lia.
  f_equal; lia.
Qed.

Lemma kth_lin n k : 0 < snd n -> fst (kth n k) * snd n + snd (kth n k) = k.
Proof.
  intros. unfold kth; simpl. pose proof (Z_div_mod_eq_full k (snd n)). lia.
Qed.

Lemma kth_next n k : 0 < snd n -> 
  (if snd (kth n k) + 1 <? snd n then (fst (kth n k), snd (kth n k) + 1) else (fst (kth n k) + 1, 0))
  = kth n (k + 1).
Proof.
  intros H. unfold kth; simpl.
  pose proof (Z_div_mod_eq_full k (snd n)) as D. pose proof (Z.mod_pos_bound k (snd n) H) as B.
  destruct (Z.ltb_spec (k mod snd n + 1) (snd n)).
  - assert (k + 1 = snd n * (k / snd n) + (k mod snd n + 1)) as E by lia.
    f_equal.
    + apply Z.div_unique with (r := k mod snd n + 1); lia.
    + apply Z.mod_unique with (q := k / snd n); lia.
  - assert (k + 1 = snd n * (k / snd n + 1) + 0) as E by lia.
    f_equal.
    + apply Z.div_unique with (r := 0); lia.
    + apply Z.mod_unique with (q := k / snd n + 1); lia.
Qed.

Lemma kth_out n k : 0 < snd n -> fst n * snd n <= k -> index_in_range (kth n k) n = false.
Proof.
  intros H K. destruct (index_in_range (kth n k) n) eqn:E; auto.
  apply index_in_range_iff in E. destruct E as [E1 E2]. pose proof (kth_lin n k H). nia.
Qed.

Section Visits.
Context {E : Env}.

Lemma increment_kth n s k : 0 < fst n -> 0 < snd n -> in_range n s -> 0 <= k < fst n * snd n ->
  increment_index (wrap_index (kth n k) n s) n s =
  if k + 1 <? fst n * snd n then (true, wrap_index (kth n (k + 1)) n s)
  else (false, wrap_index (kth n k) n s).
Proof.
  intros H0 H1 Hs Hk. unfold increment_index.
  rewrite unwrap_wrap by (auto using kth_in_range). cbv zeta. rewrite kth_next by auto.
  destruct (Z.ltb_spec (k + 1) (fst n * snd n)).
  - rewrite (proj2 (index_in_range_iff _ _)); auto. apply kth_in_range; lia.
  - rewrite kth_out by lia. reflexivity.
Qed.

Lemma wrap_zero n s : in_range n s -> wrap_index (0, 0) n s = s.
Proof.
  intros H. rewrite wrap_index_mod; auto.
  - destruct H. destruct s; simpl in *. rewrite !Z.mod_small by lia. reflexivity.
  - unfold in_range in *; simpl; lia.
Qed.

Definition visit_list (n s : idx) : list idx :=
  map (fun k => wrap_index (kth n k) n s) (zseq (fst n * snd n)).

Lemma map_run {A} (cur : map_iter -> A) n s e : in_range n s ->
  run mi_past cur map_iter_next (grid_fuel n) (MapIter n s e s false) =
  Ok (map (fun k => cur (MapIter n s e (wrap_index (kth n k) n s) false)) (zseq (fst n * snd n))).
Proof.
  intros Hs. assert (0 < fst n /\ 0 < snd n) as [H0 H1] by (destruct Hs; lia).
  assert (0 < fst n * snd n) by nia.
  pose (st := fun k => MapIter n s e (wrap_index (kth n k) n s) false).
  assert (MapIter n s e s false = st 0) as ->.
  { unfold st. f_equal. unfold kth. rewrite Z.div_0_l, Z.mod_0_l by lia. symmetry. now apply wrap_zero. }
  unfold zseq. apply (run_seq mi_past cur map_iter_next st).
  - unfold grid_fuel. lia.
  - lia.
  - intros; reflexivity.
  - intros k Hk Hk2. unfold st, map_iter_next; simpl. rewrite increment_kth by lia || auto.
    + destruct (Z.ltb_spec (k + 1) (fst n * snd n)); [reflexivity|lia].
  - unfold st, map_iter_next; simpl. rewrite increment_kth by lia || auto.
    destruct (Z.ltb_spec (Z.of_nat (Z.to_nat (fst n * snd n)) - 1 + 1) (fst n * snd n)); [lia|reflexivity].
Qed.

Lemma map_iter_new_ok n s : in_range n s ->
  exists e, map_iter_new n s = Ok (MapIter n s e s false) /\
    e = (bound1 (fst s + fst n - 1) (fst n), bound1 (snd s + snd n - 1) (snd n)).
Proof.
  intros Hs. assert (0 < fst n /\ 0 < snd n) as [H0 H1] by (destruct Hs; lia).
  unfold map_iter_new. destruct bpol; eauto.
  destruct ((fst n =? 0) || (snd n =? 0)) eqn:K; eauto. lia.
Qed.

Lemma map_visits_ok n s : in_range n s -> map_visits n s = Ok (visit_list n s).
Proof.
  intros Hs. unfold map_visits. destruct (map_iter_new_ok n s Hs) as (e & -> & _). cbn [rbind].
  apply map_run; auto.
Qed.

Lemma visit_list_In n s i : in_range n s -> (In i (visit_list n s) <-> in_range n i).
Proof.
  intros Hs. assert (0 < fst n /\ 0 < snd n) as [H0 H1] by (destruct Hs; lia).
  unfold visit_list. rewrite in_map_iff. split.
  - intros (k & <- & Hk). apply In_zseq in Hk. apply wrap_in_range; auto using kth_in_range.
  - intros Hi. exists (let u := unwrap_index i n s in fst u * snd n + snd u). cbv zeta.
    pose proof (unwrap_in_range i n s Hi Hs) as Hu. split.
    + rewrite kth_inv by auto. now apply wrap_unwrap.
    + apply In_zseq. destruct Hu. nia.
Qed.

Lemma NoDup_map_inj {A B} (f : A -> B) l :
  (forall x y, In x l -> In y l -> f x = f y -> x = y) -> NoDup l -> NoDup (map f l).
Proof.
  intros H ND. induction ND as [|x l Hx ND IH]; simpl; constructor.
  - rewrite in_map_iff. intros (y & Hy & Hin). apply Hx.
    rewrite <- (H y x); simpl; auto.
  - apply IH. intros; apply H; simpl; auto.
Qed.

Lemma visit_list_NoDup n s : in_range n s -> NoDup (visit_list n s).
Proof.
  intros Hs. assert (0 < fst n /\ 0 < snd n) as [H0 H1] by (destruct Hs; lia).
  apply NoDup_map_inj; [|apply zseq_NoDup]. intros x y Hx Hy Hxy.
  apply In_zseq in Hx, Hy. assert (kth n x = kth n y) as K.
  { rewrite <- (unwrap_wrap (kth n x) n s), <- (unwrap_wrap (kth n y) n s) by (auto using kth_in_range).
    now rewrite Hxy. }
  rewrite <- (kth_lin n x), <- (kth_lin n y) by auto. now rewrite K.
Qed.

Lemma visit_list_nth n s k i : in_range n s -> nth_error (visit_list n s) k = Some i ->
  (fst i - fst s) mod fst n * snd n + (snd i - snd s) mod snd n = Z.of_nat k.
Proof.
  intros Hs H. assert (0 < fst n /\ 0 < snd n) as [H0 H1] by (destruct Hs; lia).
  unfold visit_list in H. rewrite nth_error_map' in H.
  destruct (nth_error (zseq (fst n * snd n)) k) as [z|] eqn:Hz; [|discriminate].
  injection H as <-.
  assert ((k < Z.to_nat (fst n * snd n))%nat) as Hk.
  { rewrite <- zseq_length. apply nth_error_Some. congruence. }
  replace k with (Z.to_nat (Z.of_nat k)) in Hz by lia. rewrite zseq_nth in Hz by lia. injection Hz as <-.
  assert (in_range n (kth n (Z.of_nat k))) as Hr by (apply kth_in_range; lia).
  pose proof (unwrap_wrap _ _ _ Hr Hs) as U. rewrite unwrap_index_mod in U by (auto using wrap_in_range).
  pose proof (kth_lin n (Z.of_nat k) H1) as KL. rewrite <- U in KL. cbn [fst snd] in KL.
  exact KL.
Qed.

Lemma map_visits2_ok n s : in_range n s ->
  map_visits2 n s = Ok (map (fun i => (i, unwrap_index i n s)) (visit_list n s)).
Proof.
  intros Hs. unfold map_visits2. destruct (map_iter_new_ok n s Hs) as (e & -> & _). cbn [rbind].
  rewrite map_run by auto. unfold visit_list. rewrite map_map. reflexivity.
Qed.

(** ** Submap windows *)

(** A window given by its top-left buffer index and its size lies in the map. *)
Definition window_ok (n s tl sn : idx) : Prop :=
  in_range n s /\ in_range n tl /\ 0 < fst sn /\ 0 < snd sn /\
  (fst tl - fst s) mod fst n + fst sn <= fst n /\ (snd tl - snd s) mod snd n + snd sn <= snd n.

(** Buffer index of cell [w] of a window. *)
Definition window_cell (n s tl w : idx) : idx :=
  ((fst tl + fst w) mod fst n, (snd tl + snd w) mod snd n).

Lemma window_wrap n s tl sn w : window_ok n s tl sn -> in_range sn w ->
  let t := unwrap_index tl n s in
  in_range n (fst t + fst w, snd t + snd w) /\
  wrap_index (fst t + fst w, snd t + snd w) n s = window_cell n s tl w.
Proof.
  intros (Hs & Ht & H1 & H2 & H3 & H4) [W1 W2]. cbv zeta. rewrite unwrap_index_mod by auto.
  cbn [fst snd].
  assert (0 < fst n /\ 0 < snd n) as [N0 N1] by (destruct Hs; lia).
  assert (in_range n ((fst tl - fst s) mod fst n + fst w, (snd tl - snd s) mod snd n + snd w)) as R.
  { pose proof (Z.mod_pos_bound (fst tl - fst s) (fst n) N0).
    pose proof (Z.mod_pos_bound (snd tl - snd s) (snd n) N1). unfold in_range; cbn [fst snd]; lia. }
  split; auto. rewrite wrap_index_mod by auto. cbn [fst snd]. unfold window_cell. f_equal.
  - rewrite <- Z.add_assoc, Zplus_mod_idemp_l. f_equal; lia.
  - rewrite <- Z.add_assoc, Zplus_mod_idemp_l. f_equal; lia.
Qed.

Definition window_list (n s tl sn : idx) : list (idx * idx) :=
  map (fun k => (window_cell n s tl (kth sn k), kth sn k)) (zseq (fst sn * snd sn)).

Lemma sub_visits_ok n s tl sn : window_ok n s tl sn ->
  sub_visits n s tl sn = Ok (window_list n s tl sn).
Proof.
  intros W. pose proof W as (Hs & Ht & H1 & H2 & H3 & H4).
  assert (0 < fst n /\ 0 < snd n) as [N0 N1] by (destruct Hs; lia).
  assert (0 < fst sn * snd sn) by nia.
  pose (st := fun k => SubIter n s sn tl (window_cell n s tl (kth sn k)) (kth sn k) false).
  unfold sub_visits.
  assert (sub_iter_new n s tl sn = st 0) as ->.
  { unfold st, sub_iter_new. unfold kth. rewrite Z.div_0_l, Z.mod_0_l by lia. f_equal.
    unfold window_cell; cbn [fst snd]. destruct Ht. destruct tl; cbn [fst snd] in *.
    rewrite !Z.add_0_r, !Z.mod_small by lia. reflexivity. }
  unfold window_list, zseq.
  rewrite (run_seq sb_past (fun it => (sb_index it, sb_sindex it)) sub_iter_next st (Z.to_nat (fst sn * snd sn))).
  - reflexivity.
  - unfold grid_fuel; lia.
  - lia.
  - intros; reflexivity.
  - intros k Hk1 Hk2. unfold st, sub_iter_next, increment_submap. cbn [sb_sindex sb_index sb_sstart sb_ssize sb_size sb_start].
    rewrite kth_next by auto.
    assert (in_range sn (kth sn (k + 1))) as R by (apply kth_in_range; lia).
    rewrite (proj2 (index_in_range_iff _ _)) by auto. cbn [negb].
    destruct (window_wrap n s tl sn _ W R) as [_ ->]. reflexivity.
  - unfold st, sub_iter_next, increment_submap. cbn [sb_sindex sb_index sb_sstart sb_ssize sb_size sb_start].
    rewrite kth_next by auto. rewrite kth_out by lia. reflexivity.
Qed.

Lemma window_list_spec n s tl sn : window_ok n s tl sn ->
  NoDup (map fst (window_list n s tl sn)) /\
  (forall i w, In (i, w) (window_list n s tl sn) <-> in_range sn w /\ i = window_cell n s tl w) /\
  (forall k i w, nth_error (window_list n s tl sn) k = Some (i, w) -> fst w * snd sn + snd w = Z.of_nat k).
Proof.
  intros W. pose proof W as (Hs & Ht & H1 & H2 & H3 & H4).
  assert (0 < fst n /\ 0 < snd n) as [N0 N1] by (destruct Hs; lia).
  split; [|split].
  - unfold window_list. rewrite map_map. cbn [fst]. apply NoDup_map_inj; [|apply zseq_NoDup].
    intros x y Hx Hy Hxy. apply In_zseq in Hx, Hy.
    assert (in_range sn (kth sn x)) as Rx by (apply kth_in_range; lia).
    assert (in_range sn (kth sn y)) as Ry by (apply kth_in_range; lia).
    destruct (window_wrap n s tl sn _ W Rx) as [Ax Bx]. destruct (window_wrap n s tl sn _ W Ry) as [Ay By].
    rewrite <- Bx, <- By in Hxy. apply (f_equal (fun z => unwrap_index z n s)) in Hxy.
    rewrite !unwrap_wrap in Hxy by auto. apply pair_equal_spec in Hxy. destruct Hxy as [E1 E2].
    pose proof (kth_lin sn x H2). pose proof (kth_lin sn y H2).
    assert (fst (kth sn x) = fst (kth sn y)) by lia. assert (snd (kth sn x) = snd (kth sn y)) by lia. congruence.
  - intros i w. unfold window_list. rewrite in_map_iff. split.
    + intros (k & Hk & Hin). injection Hk as <- <-. apply In_zseq in Hin. split; auto. apply kth_in_range; lia.
    + intros [Hw ->]. exists (fst w * snd sn + snd w). rewrite kth_inv by auto. split; auto.
      apply In_zseq. destruct Hw; nia.
  - intros k i w Hk. unfold window_list in Hk. rewrite nth_error_map' in Hk.
    destruct (nth_error (zseq (fst sn * snd sn)) k) as [z|] eqn:Hz; [|discriminate].
    assert ((k < Z.to_nat (fst sn * snd sn))%nat) as Hk'.
    { rewrite <- zseq_length. apply nth_error_Some. congruence. }
    replace k with (Z.to_nat (Z.of_nat k)) in Hz by lia. rewrite zseq_nth in Hz by lia. injection Hz as <-.
    injection Hk as _ <-. now apply kth_lin.
Qed.

(** ** end() *)

Lemma map_iter_end_wrap n s it : bpol = BWrap -> in_range n s -> map_iter_new n s = Ok it ->
  mi_index (map_iter_end it) = wrap_index (fst n - 1, snd n - 1) n s.
Proof.
  intros P Hs H. destruct (map_iter_new_ok n s Hs) as (e & K & He). rewrite K in H. injection H as <-.
  simpl. rewrite He. unfold bound1. rewrite P. destruct Hs.
  rewrite wrap_index_mod; unfold in_range; cbn [fst snd]; try lia.
  rewrite !wrap1_mod by lia. f_equal; f_equal; lia.
Qed.

End Visits.
