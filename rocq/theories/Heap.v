(** std::priority_queue as implemented in libstdc++ (bits/stl_heap.h and
    bits/stl_queue.h; not part of the repository, modelled from its published
    source), and that it is a queue in the sense of [pq_spec]. *)
From Coq Require Import ZArith QArith List Bool Lia Lqa Permutation Arith.
From Verif Require Import Base BaseLemmas Inflation InflationSpec.
Import ListNotations.
Open Scope nat_scope.

(** The vector behind the queue. *)
Fixpoint upd {A} (l : list A) (k : nat) (v : A) : list A :=
  match l, k with
  | [], _ => []
  | _ :: t, O => v :: t
  | x :: t, S k' => x :: upd t k' v
  end.
Definition blank_cell : qcell := QCell 0 (0, 0)%Z (0, 0)%Z.
Definition cell (l : list qcell) (k : nat) : qcell := nth k l blank_cell.

(** inflation.hpp:117-119 *)
Definition before (a b : qcell) : bool := Qlt_bool (q_dist b) (q_dist a).

(** stl_heap.h, __push_heap with topIndex = 0 *)
Fixpoint push_heap (fuel : nat) (l : list qcell) (hole : nat) (v : qcell) : list qcell :=
  match fuel with
  | O => upd l hole v
  | S f =>
      let parent := (hole - 1) / 2 in
      if (0 <? hole) && before (cell l parent) v
      then push_heap f (upd l hole (cell l parent)) parent v
      else upd l hole v
  end.

(** stl_heap.h, the loop of __adjust_heap: moves the hole to the bottom *)
Fixpoint sink (fuel : nat) (l : list qcell) (hole : nat) : list qcell * nat :=
  match fuel with
  | O => (l, hole)
  | S f =>
      if hole <? (length l - 1) / 2
      then
        let second := 2 * (hole + 1) in
        let child := if before (cell l second) (cell l (second - 1)) then second - 1 else second in
        sink f (upd l hole (cell l child)) child
      else if Nat.even (length l) && (hole =? (length l - 2) / 2)
      then let second := 2 * (hole + 1) in (upd l hole (cell l (second - 1)), second - 1)
      else (l, hole)
  end.
Definition adjust_heap (l : list qcell) (v : qcell) : list qcell :=
  let '(l', hole) := sink (length l) l 0 in push_heap (length l) l' hole v.

(** stl_queue.h: push_back and push_heap; pop_heap and pop_back *)
Definition heap_push (c : qcell) (l : list qcell) : list qcell :=
  push_heap (length l) (l ++ [c]) (length l) c.
Definition heap_pop (l : list qcell) : option (qcell * list qcell) :=
  match l with
  | [] => None
  | [x] => Some (x, [])
  | x :: _ => Some (x, adjust_heap (removelast l) (last l blank_cell))
  end.
Definition heap_queue : pqueue := PQueue (list qcell) [] heap_push heap_pop.

(** ** It is a queue *)

Lemma upd_length {A} (l : list A) : forall k v, length (upd l k v) = length l.
Proof. induction l; intros [|k] v; cbn; auto. Qed.
Lemma cell_upd l : forall k v j, k < length l -> cell (upd l k v) j = if j =? k then v else cell l j.
Proof.
  unfold cell. induction l as [|x t IH]; intros [|k] v j H; cbn in H; try lia; destruct j; cbn; auto. apply IH. lia.
Qed.
Lemma upd_perm l : forall k v, k < length l -> Permutation (cell l k :: upd l k v) (v :: l).
Proof.
  unfold cell. induction l as [|x t IH]; intros [|k] v H; cbn in H; try lia; cbn.
  - apply perm_swap.
  - rewrite perm_swap. rewrite (IH k v) by lia. apply perm_swap.
Qed.
Lemma upd_move l h p v : h < length l -> p < length l -> p <> h -> Permutation (upd (upd l h (cell l p)) p v) (upd l h v).
Proof.
  intros H P N. apply (Permutation_cons_inv (a := cell l p)), (Permutation_cons_inv (a := cell l h)).
  pose proof (upd_perm (upd l h (cell l p)) p v) as A. rewrite upd_length, cell_upd in A by auto.
  destruct (Nat.eqb_spec p h); [contradiction|].
  pose proof (upd_perm l h (cell l p) H) as B. pose proof (upd_perm l h v H) as C.
  set (x := cell l p) in *. set (y := cell l h) in *.
  transitivity (y :: v :: upd l h x); [constructor; auto|]. transitivity (v :: y :: upd l h x); [apply perm_swap|].
  transitivity (v :: x :: l); [now constructor|]. transitivity (x :: v :: l); [apply perm_swap|].
  transitivity (x :: y :: upd l h v); [constructor; now symmetry|]. apply perm_swap.
Qed.

Definition parent (k : nat) : nat := (k - 1) / 2.
Lemma parent_eq k p : 0 < k -> parent k = p <-> 0 < k /\ (k = 2 * p + 1 \/ k = 2 * p + 2).
Proof.
  intros K. unfold parent. pose proof (Nat.div_mod (k - 1) 2). pose proof (Nat.mod_upper_bound (k - 1) 2). split; [lia|].
  intros (_ & [->| ->]); symmetry; [apply Nat.div_unique with 0|apply Nat.div_unique with 1]; lia.
Qed.
Lemma parent_lt k : 0 < k -> parent k < k.
Proof. intros K. destruct (proj1 (parent_eq k _ K) eq_refl) as (_ & [|]); lia. Qed.

Definition le_d (a b : qcell) : Prop := (q_dist a <= q_dist b)%Q.
Lemma le_d_trans a b c : le_d a b -> le_d b c -> le_d a c. Proof. unfold le_d. intros; lra. Qed.
Lemma before_true a b : before a b = true -> le_d b a.
Proof. unfold before, le_d. intros H. apply Qlt_bool_iff in H. lra. Qed.
Lemma before_false a b : before a b = false -> le_d a b.
Proof. unfold before, le_d. intros H. now apply Qlt_bool_false in H. Qed.

Definition heap (l : list qcell) : Prop := forall k, 0 < k < length l -> le_d (cell l (parent k)) (cell l k).

(** A heap around a hole: the order holds elsewhere and across the hole. *)
Definition around (l : list qcell) (h : nat) : Prop :=
  (forall k, 0 < k < length l -> k <> h -> parent k <> h -> le_d (cell l (parent k)) (cell l k)) /\
  (forall k, 0 < k < length l -> parent k = h -> 0 < h -> le_d (cell l (parent h)) (cell l k)).

Lemma push_heap_ok fuel : forall l h v, h < length l -> h <= fuel -> around l h ->
  (forall k, 0 < k < length l -> parent k = h -> le_d v (cell l k)) ->
  heap (push_heap fuel l h v) /\ Permutation (push_heap fuel l h v) (upd l h v) /\ length (push_heap fuel l h v) = length l.
Proof.
  assert (DONE : forall l h v, h < length l -> around l h -> (forall k, 0 < k < length l -> parent k = h -> le_d v (cell l k)) ->
    (0 < h -> le_d (cell l (parent h)) v) -> heap (upd l h v)).
  { intros l h v H (A & B) C D k K. rewrite upd_length in K. rewrite !cell_upd by auto.
    pose proof (parent_lt k). destruct (Nat.eqb_spec (parent k) h), (Nat.eqb_spec k h); try lia.
    - now apply C.
    - subst. apply D. lia.
    - now apply A. }
  induction fuel as [|f IH]; intros l h v H F AR C; cbn [push_heap].
  - split; [|split]; auto using upd_length. apply DONE; auto. lia.
  - fold (parent h). destruct (Nat.ltb_spec 0 h); cbn [andb].
    2:{ split; [|split]; auto using upd_length. apply DONE; auto. lia. }
    destruct (before (cell l (parent h)) v) eqn:BF.
    2:{ split; [|split]; auto using upd_length. apply DONE; auto. intros _. now apply before_false. }
    apply before_true in BF. pose proof (parent_lt h H0) as PL. destruct AR as (A & B).
    destruct (IH (upd l h (cell l (parent h))) (parent h) v) as (H1 & H2 & H3).
    + rewrite upd_length. lia.
    + lia.
    + split.
      * intros k K NK NP. rewrite upd_length in K. rewrite !cell_upd by auto.
        destruct (Nat.eqb_spec k h) as [->|]; [contradiction|]. destruct (Nat.eqb_spec (parent k) h).
        -- now apply B.
        -- now apply A.
      * intros k K KP PP. rewrite upd_length in K. rewrite !cell_upd by auto. pose proof (parent_lt (parent h) PP).
        destruct (Nat.eqb_spec (parent (parent h)) h); [lia|].
        assert (G : le_d (cell l (parent (parent h))) (cell l (parent h))) by (apply A; lia).
        destruct (Nat.eqb_spec k h) as [->|]; auto. eapply le_d_trans; [exact G|]. rewrite <- KP. apply A; auto. lia.
    + intros k K KP. rewrite upd_length in K. rewrite !cell_upd by auto.
      destruct (Nat.eqb_spec k h) as [->|]; auto. eapply le_d_trans; [exact BF|]. rewrite <- KP. apply A; auto. lia.
    + split; auto. split; [|now rewrite H3, upd_length]. rewrite H2. apply upd_move; auto; lia.
Qed.

Lemma sink_step l h c : c < length l -> 0 < c -> parent c = h -> around l h ->
  (forall k, 0 < k < length l -> parent k = h -> le_d (cell l c) (cell l k)) -> around (upd l h (cell l c)) c.
Proof.
  intros L C P (A & B) S. pose proof (parent_lt c C). split.
  - intros k K NK NP. rewrite upd_length in K. rewrite !cell_upd by lia. pose proof (parent_lt k).
    destruct (Nat.eqb_spec (parent k) h), (Nat.eqb_spec k h); try lia.
    + now apply S.
    + subst k. apply B; lia.
    + now apply A.
  - intros k K KP _. rewrite upd_length in K. rewrite !cell_upd by lia. rewrite P, Nat.eqb_refl.
    pose proof (parent_lt k). destruct (Nat.eqb_spec k h); [lia|]. rewrite <- KP. apply A; lia.
Qed.

Lemma sink_ok fuel : forall l h, h < length l -> length l <= fuel + h -> around l h ->
  let '(l', h') := sink fuel l h in
  h' < length l' /\ length l' = length l /\ around l' h' /\ (forall k, 0 < k < length l' -> parent k <> h') /\
  forall v, Permutation (upd l' h' v) (upd l h v).
Proof.
  induction fuel as [|f IH]; intros l h H F AR; [lia|]. cbn [sink].
  pose proof (Nat.div_mod (length l - 1) 2). pose proof (Nat.mod_upper_bound (length l - 1) 2).
  destruct (Nat.ltb_spec h ((length l - 1) / 2)).
  - set (second := 2 * (h + 1)). set (c := if before _ _ then _ else _).
    assert (CC : c = 2 * h + 1 \/ c = 2 * h + 2) by (unfold c, second; destruct (before _ _); lia).
    assert (CL : c < length l) by lia. assert (C0 : 0 < c) by lia.
    assert (CP : parent c = h) by (apply parent_eq; lia).
    assert (S : forall k, 0 < k < length l -> parent k = h -> le_d (cell l c) (cell l k)).
    { intros k K KP. apply parent_eq in KP; [|lia]. unfold c.
      destruct (before (cell l second) (cell l (second - 1))) eqn:BF; [apply before_true in BF|apply before_false in BF];
        destruct KP as (_ & [->| ->]); unfold second in *; 
        replace (2 * (h + 1) - 1) with (2 * h + 1) in * by lia; replace (2 * (h + 1)) with (2 * h + 2) in * by lia;
        auto; unfold le_d; apply Qle_refl. }
    specialize (IH (upd l h (cell l c)) c). rewrite upd_length in IH. specialize (IH CL ltac:(lia) (sink_step l h c CL C0 CP AR S)).
    destruct (sink f _ c) as [l' h']. destruct IH as (I1 & I2 & I3 & I4 & I5).
    split; auto. split; auto. split; auto. split; auto. intros v. rewrite I5. apply upd_move; auto. lia.
  - destruct (Nat.even (length l)) eqn:EV; cbn [andb].
    + apply Nat.even_spec in EV as [q Q]. assert (D2 : (length l - 2) / 2 = q - 1) by (symmetry; apply Nat.div_unique with 0; lia).
      assert (D1 : (length l - 1) / 2 = q - 1) by (symmetry; apply Nat.div_unique with 1; lia). rewrite D2. rewrite D1 in *.
      destruct (Nat.eqb_spec h (q - 1)).
      * set (c := 2 * (h + 1) - 1). assert (CL : c < length l) by (unfold c; lia). assert (C0 : 0 < c) by (unfold c; lia).
        assert (CP : parent c = h) by (apply parent_eq; unfold c; lia). rewrite !upd_length.
        split; auto. split; auto. split; [|split].
        -- apply sink_step; auto. intros k K KP. apply parent_eq in KP; [|lia]. assert (k = c) as -> by (unfold c; lia). unfold le_d. apply Qle_refl.
        -- intros k K KP. apply parent_eq in KP; [|lia]. unfold c in KP. lia.
        -- intros v. apply upd_move; auto. unfold c. lia.
      * split; auto. split; auto. split; auto. split; [|auto]. intros k K KP. apply parent_eq in KP; lia.
    + split; auto. split; auto. split; auto. split; [|auto]. intros k K KP. apply parent_eq in KP; [|lia].
      assert (NE : length l <> 2 * h + 2). { intros Q. rewrite Q in EV. assert (Nat.Even (2 * h + 2)) as EE by (exists (h + 1); lia). apply Nat.even_spec in EE. congruence. }
      lia.
Qed.

Lemma heap_min l x : heap l -> forall k, k < length l -> x = cell l 0 -> le_d x (cell l k).
Proof.
  intros H k. induction k as [k IH] using (well_founded_induction lt_wf). intros K ->.
  destruct (Nat.eq_dec k 0) as [->|]; [unfold le_d; apply Qle_refl|]. pose proof (parent_lt k ltac:(lia)).
  eapply le_d_trans; [apply (IH (parent k)); auto; lia|]. apply H. lia.
Qed.

Lemma adjust_ok l v : l <> [] -> heap l -> heap (adjust_heap l v) /\ Permutation (cell l 0 :: adjust_heap l v) (v :: l).
Proof.
  intros NE H. assert (LP : 0 < length l) by (destruct l; cbn; [contradiction|lia]). unfold adjust_heap.
  assert (AR : around l 0). { split; [|lia]. intros k K _ _. now apply H. }
  pose proof (sink_ok (length l) l 0 LP ltac:(lia) AR) as S. destruct (sink (length l) l 0) as [l' h'].
  destruct S as (S1 & S2 & S3 & S4 & S5).
  destruct (push_heap_ok (length l) l' h' v) as (A & B & _); auto; try lia.
  { intros k K KP. exfalso. now apply (S4 k K). }
  split; auto. rewrite B, S5. now apply upd_perm.
Qed.

Lemma cell_app l x k : k < length l -> cell (l ++ x) k = cell l k.
Proof. unfold cell. apply app_nth1. Qed.

Lemma heap_push_ok c l : heap l -> heap (heap_push c l) /\ Permutation (heap_push c l) (c :: l).
Proof.
  intros H. assert (LA : length (l ++ [c]) = S (length l)) by (rewrite app_length; cbn; lia).
  destruct (push_heap_ok (length l) (l ++ [c]) (length l) c) as (A & B & _); try lia.
  - split.
    + intros k K N _. rewrite LA in K. pose proof (parent_lt k ltac:(lia)). rewrite !cell_app by lia. apply H. lia.
    + intros k K KP. rewrite LA in K. pose proof (parent_lt k ltac:(lia)). lia.
  - intros k K KP. rewrite LA in K. pose proof (parent_lt k ltac:(lia)). lia.
  - split; auto. unfold heap_push. rewrite B. apply (Permutation_cons_inv (a := cell (l ++ [c]) (length l))). rewrite upd_perm by lia.
    unfold cell. rewrite app_nth2, Nat.sub_diag by lia. cbn. constructor. apply Permutation_sym, Permutation_cons_append.
Qed.

Definition heap_queue_spec : pq_spec heap_queue.
Proof.
  refine (Build_pq_spec heap_queue (fun l => l) heap _ _ _ _ _ _); cbn.
  - intros k K. cbn in K. lia.
  - reflexivity.
  - intros c l H. now apply heap_push_ok.
  - intros c l H. now apply heap_push_ok.
  - intros q _. destruct q as [|x [|y t]]; [reflexivity|discriminate|discriminate].
  - intros c l l' H P. destruct l as [|x [|y t]]; [discriminate| |].
    + cbn in P. injection P as <- <-. split; [intros k K; cbn in K; lia|]. split; [reflexivity|]. intros ? [].
    + unfold heap_pop in P. set (l := x :: y :: t) in *.
      assert (LL : l = removelast l ++ [last l blank_cell]) by (apply app_removelast_last; discriminate).
      assert (HR : heap (removelast l)).
      { intros k K. rewrite LL in H. specialize (H k). rewrite app_length in H. pose proof (parent_lt k ltac:(lia)). rewrite !cell_app in H by lia. apply H. lia. }
      assert (C0 : cell (removelast l) 0 = x) by reflexivity.
      destruct (adjust_ok (removelast l) (last l blank_cell) ltac:(discriminate) HR) as (A & B).
      injection P as <- <-. split; auto. rewrite C0 in B.
      assert (PM : Permutation l (x :: adjust_heap (removelast l) (last l blank_cell))).
      { rewrite B. rewrite LL at 1. apply Permutation_sym, Permutation_cons_append. }
      split; auto. intros z Hz. assert (IZ : In z l) by (apply (Permutation_in z (Permutation_sym PM)); right; auto).
      apply (In_nth l z blank_cell) in IZ as (k & K & <-). apply (heap_min l x); auto.
Defined.
