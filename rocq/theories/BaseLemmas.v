(** Lemmas about Base.v and Mat.v. *)
From Coq Require Import ZArith QArith Qround Qabs Qreduction Qfield String List Bool Lia Lqa Permutation.
From Coq Require Import ZifyBool.
From Verif Require Import Base Mat.
Import ListNotations.
Open Scope Z_scope.

(* ------------------------------------------------------------------ *)
(** ** Lists *)

Lemma zseq_aux_In a n x : In x (zseq_aux a n) <-> a <= x < a + Z.of_nat n.
Proof.
  revert a; induction n as [|n IH]; intros a; simpl; [lia|].
  rewrite IH; lia.
Qed.

Lemma In_zseq n x : In x (zseq n) <-> 0 <= x < n.
Proof. unfold zseq; rewrite zseq_aux_In; lia. Qed.

Lemma zseq_aux_length a n : length (zseq_aux a n) = n.
Proof. revert a; induction n; intros; simpl; congruence. Qed.

Lemma zseq_length n : length (zseq n) = Z.to_nat n.
Proof. apply zseq_aux_length. Qed.

Lemma zseq_aux_nth a n k : (k < n)%nat -> nth_error (zseq_aux a n) k = Some (a + Z.of_nat k).
Proof.
  revert a k; induction n as [|n IH]; intros a k H; [lia|].
  destruct k; simpl; [f_equal; lia|].
  rewrite IH by lia; f_equal; lia.
Qed.

Lemma zseq_nth n k : 0 <= k < n -> nth_error (zseq n) (Z.to_nat k) = Some k.
Proof. intros; unfold zseq; rewrite zseq_aux_nth by lia; f_equal; lia. Qed.

Lemma zseq_aux_NoDup a n : NoDup (zseq_aux a n).
Proof.
  revert a; induction n as [|n IH]; intros a; simpl; constructor; auto.
  rewrite zseq_aux_In; lia.
Qed.

Lemma zseq_NoDup n : NoDup (zseq n).
Proof. apply zseq_aux_NoDup. Qed.

Lemma zseq_aux_snoc a n : zseq_aux a (S n) = zseq_aux a n ++ [a + Z.of_nat n].
Proof.
  revert a; induction n as [|n IH]; intros a.
  - simpl. f_equal; lia.
  - change (zseq_aux a (S (S n))) with (a :: zseq_aux (a + 1) (S n)).
    rewrite IH. simpl. do 3 f_equal; lia.
Qed.

Lemma zseq_snoc n : 0 <= n -> zseq (n + 1) = zseq n ++ [n].
Proof.
  intros. unfold zseq. replace (Z.to_nat (n + 1)) with (S (Z.to_nat n)) by lia.
  rewrite zseq_aux_snoc. do 2 f_equal. lia.
Qed.

Lemma nth_error_lupd {A} (l : list A) n v k :
  nth_error (lupd l n v) k =
  if Nat.eqb k n then (if Nat.ltb n (length l) then Some v else None) else nth_error l k.
Proof.
  revert n k; induction l as [|h t IH]; intros n k; simpl.
  - destruct n; simpl; destruct k; simpl; try reflexivity.
    destruct (k =? n)%nat; auto.
  - destruct n, k; simpl; try reflexivity.
    rewrite IH. destruct (Nat.eqb_spec k n); try reflexivity.
Qed.

Lemma lupd_length {A} (l : list A) n v : length (lupd l n v) = length l.
Proof. revert n; induction l; intros [|n]; simpl; congruence. Qed.

Lemma nth_error_map' {A B} (f : A -> B) l n :
  nth_error (map f l) n = option_map f (nth_error l n).
Proof. revert n; induction l; intros [|n]; simpl; auto. Qed.

Lemma list_ext {A} (l1 l2 : list A) :
  (forall n, nth_error l1 n = nth_error l2 n) -> l1 = l2.
Proof.
  revert l2; induction l1 as [|a l1 IH]; intros [|b l2] H; auto.
  - specialize (H 0%nat); discriminate.
  - specialize (H 0%nat); discriminate.
  - f_equal.
    + specialize (H 0%nat); simpl in H; congruence.
    + apply IH; intros n; exact (H (S n)).
Qed.

Lemma nth_error_repeat_some {A} (a : A) n k : (k < n)%nat -> nth_error (repeat a n) k = Some a.
Proof.
  revert k; induction n; intros k H; [lia|]. destruct k; simpl; auto. apply IHn; lia.
Qed.

(* ------------------------------------------------------------------ *)
(** ** Rationals *)

Lemma inject_Z_1 : inject_Z 1 = 1%Q. Proof. reflexivity. Qed.
Lemma inject_Z_0 : inject_Z 0 = 0%Q. Proof. reflexivity. Qed.
Lemma inject_Z_m1 : inject_Z (-1) = (-(1))%Q. Proof. reflexivity. Qed.
Lemma inject_Z_sub a b : inject_Z (a - b) = (inject_Z a - inject_Z b)%Q.
Proof. unfold Z.sub, Qminus. now rewrite inject_Z_plus, inject_Z_opp. Qed.
(** Push inject_Z to the leaves. *)
Ltac injz := rewrite ?inject_Z_sub, ?inject_Z_plus, ?inject_Z_mult, ?inject_Z_opp, ?inject_Z_1, ?inject_Z_0, ?inject_Z_m1 in *.

Lemma Qlt_bool_iff a b : Qlt_bool a b = true <-> (a < b)%Q.
Proof.
  unfold Qlt_bool. rewrite negb_true_iff. split; intros H.
  - apply Qnot_le_lt. intros C. apply Qle_bool_iff in C. congruence.
  - destruct (Qle_bool b a) eqn:Heq; auto.
    apply Qle_bool_iff in Heq. exfalso. eapply Qlt_irrefl, Qlt_le_trans; eauto.
Qed.

Lemma Qle_bool_false a b : Qle_bool a b = false <-> (b < a)%Q.
Proof.
  rewrite <- Qlt_bool_iff. unfold Qlt_bool. destruct (Qle_bool a b); simpl; intuition congruence.
Qed.

Lemma Qlt_bool_false a b : Qlt_bool a b = false <-> (b <= a)%Q.
Proof. unfold Qlt_bool. rewrite negb_false_iff. apply Qle_bool_iff. Qed.

Lemma Qle_bool_comp : Proper (Qeq ==> Qeq ==> eq) Qle_bool.
Proof.
  intros a b Hab c d Hcd. apply eq_true_iff_eq. rewrite !Qle_bool_iff, Hab, Hcd. tauto.
Qed.
#[export] Existing Instance Qle_bool_comp.

Lemma Qlt_bool_comp : Proper (Qeq ==> Qeq ==> eq) Qlt_bool.
Proof.
  intros a b Hab c d Hcd. unfold Qlt_bool. rewrite Hab, Hcd. reflexivity.
Qed.
#[export] Existing Instance Qlt_bool_comp.

Lemma Qfloor_unique q k : (inject_Z k <= q)%Q -> (q < inject_Z (k + 1))%Q -> Qfloor q = k.
Proof.
  intros H1 H2.
  assert (A := Qfloor_le q). assert (B := Qlt_floor q).
  assert (C : (inject_Z k < inject_Z (Qfloor q + 1))%Q) by (eapply Qle_lt_trans; eauto).
  assert (D : (inject_Z (Qfloor q) < inject_Z (k + 1))%Q) by (eapply Qle_lt_trans; eauto).
  rewrite <- Zlt_Qlt in C, D. lia.
Qed.

Lemma Qtrunc_nonneg q : (0 <= q)%Q -> Qtrunc q = Qfloor q.
Proof.
  destruct q as [n d]. unfold Qle, Qtrunc, Qfloor; simpl. intros H.
  apply Z.quot_div_nonneg; lia.
Qed.

Lemma Qtrunc_opp q : Qtrunc (- q) = - Qtrunc q.
Proof.
  destruct q as [n d]. unfold Qtrunc; simpl. apply Z.quot_opp_l. lia.
Qed.

Lemma Qtrunc_comp : Proper (Qeq ==> eq) Qtrunc.
Proof.
  intros a b H.
  assert (K : forall x y, (x == y)%Q -> (0 <= x)%Q -> Qtrunc x = Qtrunc y).
  { intros x y Hxy Hx. rewrite !Qtrunc_nonneg; auto. now rewrite Hxy. now rewrite <- Hxy. }
  destruct (Qlt_le_dec a 0) as [Hn|Hp]; [|now apply K].
  assert (- Qtrunc a = - Qtrunc b); [|lia].
  rewrite <- !Qtrunc_opp. apply K. now rewrite H. lra.
Qed.
#[export] Existing Instance Qtrunc_comp.

Lemma Qround_away_comp : Proper (Qeq ==> eq) Qround_away.
Proof.
  intros a b H. unfold Qround_away. rewrite H. destruct (Qle_bool 0 b); now rewrite H.
Qed.
#[export] Existing Instance Qround_away_comp.

Lemma Qtrunc_unique q k :
  (0 <= q)%Q -> (inject_Z k <= q)%Q -> (q < inject_Z k + 1)%Q -> Qtrunc q = k.
Proof.
  intros H0 H1 H2. rewrite Qtrunc_nonneg by auto. apply Qfloor_unique; auto.
  rewrite inject_Z_plus. exact H2.
Qed.

Lemma Qtrunc_Z k : Qtrunc (inject_Z k) = k.
Proof. unfold Qtrunc, inject_Z; simpl. apply Z.quot_1_r. Qed.

Lemma Qround_away_Z k : Qround_away (inject_Z k) = k.
Proof.
  unfold Qround_away. destruct (Qle_bool 0 (inject_Z k)) eqn:H;
    [apply Qle_bool_iff in H | apply Qle_bool_false in H].
  - apply Qfloor_unique; injz; lra.
  - assert (Qfloor (- inject_Z k + (1#2)) = - k); [|lia].
    apply Qfloor_unique; injz; lra.
Qed.

(** [round] returns a nearest integer. *)
Lemma Qround_away_near q :
  (Qabs (q - inject_Z (Qround_away q)) <= 1#2)%Q.
Proof.
  unfold Qround_away. apply Qabs_Qle_condition. destruct (Qle_bool 0 q) eqn:H.
  - pose proof (Qfloor_le (q + (1#2))). pose proof (Qlt_floor (q + (1#2))) as K.
    injz. split; lra.
  - pose proof (Qfloor_le (-q + (1#2))). pose proof (Qlt_floor (-q + (1#2))) as K.
    injz. split; lra.
Qed.

Lemma inject_Z_pos n : 0 < n -> (0 < inject_Z n)%Q.
Proof. intros. change 0%Q with (inject_Z 0). now rewrite <- Zlt_Qlt. Qed.

Lemma inject_Z_nonneg n : 0 <= n -> (0 <= inject_Z n)%Q.
Proof. intros. change 0%Q with (inject_Z 0). now rewrite <- Zle_Qle. Qed.

Section ExactOps.
Context {E : Env} (X : Exact E).
Lemma fadd_eq a b : (fadd a b == a + b)%Q. Proof. apply X. Qed.
Lemma fsub_eq a b : (fsub a b == a - b)%Q. Proof. apply X. Qed.
Lemma fmul_eq a b : (fmul a b == a * b)%Q. Proof. apply X. Qed.
Lemma fdiv_eq a b : (fdiv a b == a / b)%Q. Proof. apply X. Qed.
End ExactOps.

Lemma exact_wrap_Exact : Exact exact_wrap.
Proof. intros x; apply Qred_correct. Qed.
Lemma exact_clamp_Exact : Exact exact_clamp.
Proof. intros x; apply Qred_correct. Qed.

(* ------------------------------------------------------------------ *)
(** ** Matrices *)

Lemma in_mat_iff m i j : in_mat m i j = true <-> 0 <= i < mrows m /\ 0 <= j < mcols m.
Proof. unfold in_mat; lia. Qed.

Lemma in_mat_lin r c i j : 0 <= i < r -> 0 <= j < c -> 0 <= i + j * r < r * c.
Proof. intros; nia. Qed.

Lemma mget_Some_iff m i j : wf_mat m ->
  ((exists v, mget m i j = Some v) <-> 0 <= i < mrows m /\ 0 <= j < mcols m).
Proof.
  intros (Hr & Hc & Hl). rewrite <- in_mat_iff. unfold mget.
  destruct (in_mat m i j) eqn:H; split; intros K; try discriminate; auto.
  - apply in_mat_iff in H. pose proof (in_mat_lin _ _ _ _ (proj1 H) (proj2 H)).
    destruct (nth_error (mcoef m) (Z.to_nat (i + j * mrows m))) eqn:Hn; eauto.
    apply nth_error_None in Hn. lia.
  - destruct K; discriminate.
Qed.

Lemma mget_in m i j v : mget m i j = Some v -> 0 <= i < mrows m /\ 0 <= j < mcols m.
Proof.
  unfold mget. destruct (in_mat m i j) eqn:H; [|discriminate]. intros _. now apply in_mat_iff.
Qed.

Lemma mget_out m i j : ~ (0 <= i < mrows m /\ 0 <= j < mcols m) -> mget m i j = None.
Proof.
  intros H. destruct (mget m i j) eqn:K; auto. apply mget_in in K. tauto.
Qed.

Lemma mget_cell m i j : wf_mat m -> 0 <= i < mrows m -> 0 <= j < mcols m ->
  mget m i j = Some (cell m i j).
Proof.
  intros W Hi Hj. destruct (proj2 (mget_Some_iff m i j W)) as [v Hv]; auto.
  unfold cell. now rewrite Hv.
Qed.

Lemma mat_ext a b : wf_mat a -> wf_mat b -> mrows a = mrows b -> mcols a = mcols b ->
  (forall i j, 0 <= i < mrows a -> 0 <= j < mcols a -> mget a i j = mget b i j) -> a = b.
Proof.
  intros (Hr & Hc & Hl) (Hr' & Hc' & Hl') E1 E2 H.
  destruct a as [r c l], b as [r' c' l']; simpl in *; subst r' c'. f_equal.
  apply list_ext. intros n.
  destruct (Z_lt_le_dec (Z.of_nat n) (r * c)) as [Hn|Hn].
  - assert (0 < r) by nia. assert (0 < c) by nia.
    pose proof (Z_div_mod_eq_full (Z.of_nat n) r) as Hdm.
    pose proof (Z.mod_pos_bound (Z.of_nat n) r ltac:(lia)) as Hm.
    assert (0 <= Z.of_nat n / r < c) as Hd.
    { split. apply Z.div_pos; lia. apply Z.div_lt_upper_bound; lia. }
    specialize (H (Z.of_nat n mod r) (Z.of_nat n / r) Hm Hd).
    unfold mget, in_mat in H; simpl in H.
    replace ((0 <=? Z.of_nat n mod r) && (Z.of_nat n mod r <? r) &&
             (0 <=? Z.of_nat n / r) && (Z.of_nat n / r <? c)) with true in H by lia.
    replace (Z.to_nat (Z.of_nat n mod r + Z.of_nat n / r * r)) with n in H by lia.
    exact H.
  - rewrite (proj2 (nth_error_None l n)) by lia.
    rewrite (proj2 (nth_error_None l' n)) by lia. reflexivity.
Qed.

Lemma wf_mbuild r c f : 0 <= r -> 0 <= c -> wf_mat (mbuild r c f).
Proof.
  intros. unfold wf_mat, mbuild; simpl. rewrite map_length, zseq_length. nia.
Qed.

Lemma mget_mbuild r c f i j : 0 <= i < r -> 0 <= j < c -> mget (mbuild r c f) i j = Some (f i j).
Proof.
  intros Hi Hj. unfold mget. 
  rewrite (proj2 (in_mat_iff (mbuild r c f) i j)) by (simpl; auto). simpl.
  rewrite nth_error_map', zseq_nth by (apply in_mat_lin; auto). simpl.
  rewrite Z.mod_add, Z.mod_small by lia.
  rewrite Z.div_add, Z.div_small by lia. reflexivity.
Qed.

Lemma cell_mbuild r c f i j : 0 <= i < r -> 0 <= j < c -> cell (mbuild r c f) i j = f i j.
Proof. intros. unfold cell. now rewrite mget_mbuild. Qed.

Lemma wf_mconst r c v : 0 <= r -> 0 <= c -> wf_mat (mconst r c v).
Proof. intros. unfold wf_mat, mconst; simpl. rewrite repeat_length. nia. Qed.

Lemma mget_mconst r c v i j : 0 <= i < r -> 0 <= j < c -> mget (mconst r c v) i j = Some v.
Proof.
  intros Hi Hj. unfold mget.
  rewrite (proj2 (in_mat_iff (mconst r c v) i j)) by (simpl; auto). simpl.
  pose proof (in_mat_lin r c i j Hi Hj). apply nth_error_repeat_some. lia.
Qed.

Lemma mset_spec m i j v m' : wf_mat m -> mset m i j v = Some m' ->
  (0 <= i < mrows m /\ 0 <= j < mcols m) /\ wf_mat m' /\ mrows m' = mrows m /\ mcols m' = mcols m /\
  (forall a b, mget m' a b = if (a =? i) && (b =? j) then Some v else mget m a b).
Proof.
  intros (Hr & Hc & Hl). unfold mset. destruct (in_mat m i j) eqn:H; [|discriminate].
  intros K; injection K as <-. apply in_mat_iff in H. split; auto.
  split; [unfold wf_mat; simpl; rewrite lupd_length; auto|].
  split; auto. split; auto. intros a b. unfold mget; simpl.
  replace (in_mat {| mrows := mrows m; mcols := mcols m;
     mcoef := lupd (mcoef m) (Z.to_nat (i + j * mrows m)) v |} a b) with (in_mat m a b) by reflexivity.
  destruct (in_mat m a b) eqn:Hab.
  - apply in_mat_iff in Hab. rewrite nth_error_lupd.
    pose proof (in_mat_lin _ _ _ _ (proj1 H) (proj2 H)).
    pose proof (in_mat_lin _ _ _ _ (proj1 Hab) (proj2 Hab)).
    destruct (Nat.eqb_spec (Z.to_nat (a + b * mrows m)) (Z.to_nat (i + j * mrows m))) as [e|e].
    + assert (a + b * mrows m = i + j * mrows m) by lia.
      assert (b = j) by nia. assert (a = i) by nia. subst.
      rewrite !Z.eqb_refl. simpl. destruct (Nat.ltb_spec (Z.to_nat (i + j * mrows m)) (length (mcoef m))); auto. lia.
    + destruct (Z.eqb_spec a i), (Z.eqb_spec b j); simpl; auto. subst; lia.
  - destruct (Z.eqb_spec a i), (Z.eqb_spec b j); simpl; auto. subst.
    apply in_mat_iff in H. congruence.
Qed.

Lemma mset_Some m i j v : 0 <= i < mrows m -> 0 <= j < mcols m -> exists m', mset m i j v = Some m'.
Proof.
  intros. unfold mset. rewrite (proj2 (in_mat_iff m i j)) by auto. eauto.
Qed.

Lemma block_ok_iff m i j h w : block_ok m i j h w = true <->
  (0 <= i /\ 0 <= h /\ i + h <= mrows m) /\ (0 <= j /\ 0 <= w /\ j + w <= mcols m).
Proof. unfold block_ok; lia. Qed.

Lemma in_block_iff i0 j0 h w i j : in_block i0 j0 h w i j = true <->
  i0 <= i < i0 + h /\ j0 <= j < j0 + w.
Proof. unfold in_block; lia. Qed.

Lemma mfill_spec m i0 j0 h w v m' : wf_mat m -> mfill m i0 j0 h w v = Some m' ->
  wf_mat m' /\ mrows m' = mrows m /\ mcols m' = mcols m /\
  (forall i j, 0 <= i < mrows m -> 0 <= j < mcols m ->
     mget m' i j = if in_block i0 j0 h w i j then Some v else mget m i j).
Proof.
  intros W. unfold mfill. destruct (block_ok m i0 j0 h w) eqn:H; [|discriminate].
  intros K; injection K as <-. destruct W as (Hr & Hc & Hl).
  split; [now apply wf_mbuild|]. split; auto. split; auto.
  intros i j Hi Hj. rewrite mget_mbuild by auto.
  destruct (in_block i0 j0 h w i j); auto. symmetry. apply mget_cell; auto. repeat split; auto.
Qed.

Lemma mcopy_spec dst di dj src si sj h w m' : wf_mat dst -> wf_mat src ->
  mcopy dst di dj src si sj h w = Some m' ->
  wf_mat m' /\ mrows m' = mrows dst /\ mcols m' = mcols dst /\
  (forall i j, 0 <= i < mrows dst -> 0 <= j < mcols dst ->
     mget m' i j = if in_block di dj h w i j then mget src (si + (i - di)) (sj + (j - dj))
                   else mget dst i j).
Proof.
  intros W Ws. unfold mcopy. destruct (block_ok dst di dj h w) eqn:H; [|discriminate].
  destruct (block_ok src si sj h w) eqn:H2; [|discriminate]. simpl.
  intros K; injection K as <-. pose proof W as (Hr & Hc & Hl).
  split; [now apply wf_mbuild|]. split; auto. split; auto.
  intros i j Hi Hj. rewrite mget_mbuild by auto.
  destruct (in_block di dj h w i j) eqn:Hb; symmetry; apply mget_cell; auto;
  apply block_ok_iff in H2; apply in_block_iff in Hb; lia.
Qed.

(* ------------------------------------------------------------------ *)
(** ** Association lists *)

Lemma aget_aset {A} (d : list (string * A)) k v k' :
  aget (aset d k v) k' = if String.eqb k' k then (if amem d k then Some v else None) else aget d k'.
Proof.
  unfold amem. induction d as [|[a x] d IH]; simpl.
  - destruct (String.eqb k' k); auto.
  - destruct (String.eqb_spec k a); simpl.
    + subst a. destruct (String.eqb_spec k' k); auto.
    + rewrite IH. destruct (String.eqb_spec k' a); simpl.
      * subst a. destruct (String.eqb_spec k' k); congruence.
      * reflexivity.
Qed.

Lemma akeys_aset {A} (d : list (string * A)) k v : akeys (aset d k v) = akeys d.
Proof.
  induction d as [|[a x] d IH]; simpl; auto.
  destruct (String.eqb k a); simpl; congruence.
Qed.

Lemma aget_In {A} (d : list (string * A)) k : (exists v, aget d k = Some v) <-> In k (akeys d).
Proof.
  induction d as [|[a x] d IH]; simpl.
  - split; [intros [v H]; discriminate|tauto].
  - destruct (String.eqb_spec k a).
    + subst. split; eauto.
    + rewrite IH. split; intros; [now right|]. destruct H as [?|?]; [congruence|auto].
Qed.

Lemma amem_In {A} (d : list (string * A)) k : amem d k = true <-> In k (akeys d).
Proof.
  rewrite <- aget_In. unfold amem. destruct (aget d k); split; intros; eauto; try discriminate.
  destruct H; discriminate.
Qed.

Lemma amem_false {A} (d : list (string * A)) k : amem d k = false <-> aget d k = None.
Proof. unfold amem. destruct (aget d k); split; congruence. Qed.

Lemma aget_app {A} (d e : list (string * A)) k :
  aget (d ++ e) k = match aget d k with Some v => Some v | None => aget e k end.
Proof.
  induction d as [|[a x] d IH]; simpl; auto. destruct (String.eqb k a); auto.
Qed.

Lemma aget_ainsert {A} (d : list (string * A)) k v k' :
  aget (ainsert d k v) k' =
  if String.eqb k' k then (if amem d k then aget d k else Some v) else aget d k'.
Proof.
  unfold ainsert. destruct (amem d k) eqn:H.
  - destruct (String.eqb_spec k' k); subst; auto.
  - rewrite aget_app. simpl. destruct (String.eqb_spec k' k).
    + subst. apply amem_false in H. now rewrite H.
    + destruct (aget d k'); auto.
Qed.

Lemma akeys_ainsert {A} (d : list (string * A)) k v :
  akeys (ainsert d k v) = if amem d k then akeys d else akeys d ++ [k].
Proof.
  unfold ainsert. destruct (amem d k); auto. unfold akeys. now rewrite map_app.
Qed.

Lemma aget_None {A} (d : list (string * A)) k : aget d k = None <-> ~ In k (akeys d).
Proof.
  rewrite <- aget_In. destruct (aget d k) eqn:H; split; intros; try congruence.
  - exfalso; eauto.
  - intros [v Hv]; congruence.
Qed.

Lemma aget_adel {A} (d : list (string * A)) k k' : NoDup (akeys d) ->
  aget (adel d k) k' = if String.eqb k' k then None else aget d k'.
Proof.
  induction d as [|[a x] d IH]; simpl; intros ND.
  - destruct (String.eqb k' k); auto.
  - inversion ND; subst. destruct (String.eqb_spec k a); simpl.
    + subst a. destruct (String.eqb_spec k' k); auto. subst. now apply aget_None.
    + rewrite IH by auto. destruct (String.eqb_spec k' a); auto.
      subst. destruct (String.eqb_spec a k); congruence.
Qed.

Lemma akeys_adel {A} (d : list (string * A)) k : akeys (adel d k) = remove_first k (akeys d).
Proof.
  induction d as [|[a x] d IH]; simpl; auto. destruct (String.eqb k a); simpl; congruence.
Qed.

Lemma aget_map {A B} (f : A -> B) (d : list (string * A)) k :
  aget (map (fun kv => (fst kv, f (snd kv))) d) k = option_map f (aget d k).
Proof.
  induction d as [|[a x] d IH]; simpl; auto. destruct (String.eqb k a); auto.
Qed.

Lemma akeys_map {A B} (f : string * A -> B) (d : list (string * A)) :
  akeys (map (fun kv => (fst kv, f kv)) d) = akeys d.
Proof. unfold akeys. rewrite map_map. reflexivity. Qed.

Lemma smem_In k l : smem k l = true <-> In k l.
Proof.
  unfold smem. rewrite existsb_exists. split.
  - intros (x & Hx & He). apply String.eqb_eq in He. now subst.
  - intros. exists k. split; auto. apply String.eqb_refl.
Qed.

Lemma smem_false k l : smem k l = false <-> ~ In k l.
Proof. rewrite <- smem_In. destruct (smem k l); intuition congruence. Qed.

Lemma remove_first_not_in k l : ~ In k l -> remove_first k l = l.
Proof.
  induction l as [|x t IH]; simpl; intros H; auto.
  destruct (String.eqb_spec k x); [subst; tauto|]. f_equal; tauto.
Qed.

Lemma remove_first_In k l x : NoDup l -> (In x (remove_first k l) <-> In x l /\ x <> k).
Proof.
  induction l as [|y t IH]; simpl; intros ND; [tauto|].
  inversion ND; subst. destruct (String.eqb_spec k y).
  - subst y. split.
    + intros H. split; auto. intros ->. tauto.
    + intros [[->|H] Hn]; auto. congruence.
  - simpl. rewrite IH by auto. split.
    + intros [->|[H Hn]]; auto.
    + intros [[->|H] Hn]; auto.
Qed.

Lemma remove_first_NoDup k l : NoDup l -> NoDup (remove_first k l).
Proof.
  induction l as [|y t IH]; simpl; intros ND; auto.
  inversion ND; subst. destruct (String.eqb_spec k y); auto.
  constructor; auto. rewrite remove_first_In by auto. tauto.
Qed.

(* ------------------------------------------------------------------ *)
(** ** Monad *)

Lemma mfor_inv {S A} (P : S -> Prop) (l : list A) (body : A -> M S unit) :
  (forall a s, In a l -> P s -> exists s', body a s = Ret tt s' /\ P s') ->
  forall s, P s -> exists s', mfor l body s = Ret tt s' /\ P s'.
Proof.
  induction l as [|a l IH]; intros H s Hs; simpl.
  - exists s; split; auto.
  - destruct (H a s (or_introl eq_refl) Hs) as (s' & Hb & Hs'). rewrite Hb.
    apply IH; auto. intros; apply H; simpl; auto.
Qed.

Lemma mfor_app {S A} (l1 l2 : list A) (body : A -> M S unit) s :
  mfor (l1 ++ l2) body s =
  match mfor l1 body s with Ret _ s' => mfor l2 body s' | Exn e s' => Exn e s' | Flt t => Flt t end.
Proof.
  revert s; induction l1 as [|a l1 IH]; intros s; simpl; auto.
  destruct (body a s); auto.
Qed.
