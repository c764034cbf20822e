(** Proofs for the conversion from costmap_2d. *)
From Coq Require Import ZArith QArith Qround Qabs Qfield String List Bool Lia Lqa.
From Coq Require Import ZifyBool.
From Verif Require Import Base Mat GridMapMath GridIter CostMap Converter Costmap2D BaseLemmas Spec ConvertSpec GeoLemmas CoreProofs CoreProofs2 CoreFinal MessageProofs.
Import ListNotations.
Open Scope Z_scope.

(** ** Lists of costs *)

Lemma nth_error_eq {A} (a b : list A) : (forall n, nth_error a n = nth_error b n) -> a = b.
Proof.
  revert b. induction a as [|x a IH]; intros [|y b] H; auto.
  - specialize (H 0%nat). discriminate.
  - specialize (H 0%nat). discriminate.
  - f_equal; [specialize (H 0%nat); cbn in H; congruence|]. apply IH. intros n. apply (H (S n)).
Qed.

Lemma nth_error_rev {A} (l : list A) n : (n < length l)%nat -> nth_error (rev l) n = nth_error l (length l - 1 - n).
Proof.
  intros H. destruct l as [|a l]; [cbn in H; lia|].
  rewrite (nth_error_nth' (rev (a :: l)) a) by now rewrite rev_length.
  rewrite rev_nth by auto. rewrite (nth_error_nth' (a :: l) a) by lia. do 2 f_equal. lia.
Qed.

Lemma reversed_ok k cells : 0 <= cells -> Z.of_nat (length (k_char k)) = cells -> reversed_costs k cells = Ok (rev (k_char k)).
Proof.
  intros C L. unfold reversed_costs.
  rewrite (rmap_ok _ (fun i => nth (Z.to_nat (cells - 1 - i)) (k_char k) 0)).
  - f_equal. apply nth_error_eq. intros n. rewrite nth_error_map'. destruct (Nat.lt_ge_cases n (length (k_char k))) as [H|H].
    + replace n with (Z.to_nat (Z.of_nat n)) at 1 by lia. rewrite zseq_nth by lia. cbn [option_map].
      rewrite nth_error_rev by auto. rewrite (nth_error_nth' _ 0) by lia. do 2 f_equal. lia.
    + assert (nth_error (rev (k_char k)) n = None) as -> by (apply nth_error_None; rewrite rev_length; lia).
      assert (nth_error (zseq cells) n = None) as -> by (apply nth_error_None; rewrite zseq_length; lia). reflexivity.
  - intros i Hi. apply In_zseq in Hi. rewrite (nth_error_nth' _ 0) by lia. reflexivity.
Qed.

(** Rows of equal length, one after the other. *)
Lemma flat_map_length {A} (f : Z -> list A) n l : (forall y, In y l -> length (f y) = n) -> length (flat_map f l) = (n * length l)%nat.
Proof.
  induction l as [|y l IH]; intros H; cbn [flat_map length]; [lia|]. rewrite app_length, IH, H by (intros; auto using in_eq, in_cons). lia.
Qed.

Lemma flat_map_row {A} (f : Z -> list A) n : forall l y r x, (forall y, In y l -> length (f y) = n) -> nth_error l y = Some r ->
  (x < n)%nat -> nth_error (flat_map f l) (y * n + x) = nth_error (f r) x.
Proof.
  induction l as [|a l IH]; intros [|y] r x H K X; try discriminate; cbn [flat_map].
  - injection K as ->. cbn [Nat.mul Nat.add]. apply nth_error_app1. rewrite H by apply in_eq. exact X.
  - cbn [nth_error] in K. rewrite nth_error_app2 by (rewrite H by apply in_eq; cbn; lia). rewrite H by apply in_eq.
    replace (S y * n + x - n)%nat with (y * n + x)%nat by (cbn; lia). apply IH; auto using in_cons.
Qed.

Lemma nth_skipn {A} (l : list A) a x : nth_error (skipn a l) x = nth_error l (a + x).
Proof. revert l. induction a as [|a IH]; intros [|y l]; cbn; auto. now destruct x. Qed.

(** ** Specification of a costmap *)

(** Cell (x, y), counted from the origin, has cost v. *)
Definition cost_at (k : costmap2d) (c : idx) (v : Z) : Prop :=
  in_range (k_size k) c /\ nth_error (k_char k) (Z.to_nat (snd c * fst (k_size k) + fst c)) = Some v.

(** Its centre. *)
Definition cost_centre (k : costmap2d) (c : idx) : vec :=
  (fst (k_origin k) + (inject_Z (fst c) + (1#2)) * k_resn k, snd (k_origin k) + (inject_Z (snd c) + (1#2)) * k_resn k)%Q.

(** A costmap with at least one cell and a cost for each. *)
Definition costmap_ok (k : costmap2d) : Prop :=
  (0 < k_resn k)%Q /\ 0 < fst (k_size k) /\ 0 < snd (k_size k) /\
  Z.of_nat (length (k_char k)) = fst (k_size k) * snd (k_size k).

Lemma cost_exists k c : costmap_ok k -> in_range (k_size k) c -> exists v, cost_at k c v.
Proof.
  intros (_ & N0 & N1 & L) [A B]. destruct (nth_error (k_char k) (Z.to_nat (snd c * fst (k_size k) + fst c))) as [v|] eqn:H.
  - exists v. split; [split; auto|exact H].
  - apply nth_error_None in H. nia.
Qed.

(** Part of a costmap: n cells from cell a on. *)
Lemma region_length k a n : costmap_ok k -> 0 <= fst a -> 0 <= snd a -> 0 <= fst n -> 0 <= snd n ->
  fst a + fst n <= fst (k_size k) -> snd a + snd n <= snd (k_size k) ->
  Z.of_nat (length (copyMapRegion k a n)) = fst n * snd n.
Proof.
  intros (_ & N0 & N1 & L) A0 A1 P0 P1 B0 B1. unfold copyMapRegion. rewrite (flat_map_length _ (Z.to_nat (fst n))).
  - rewrite zseq_length. nia.
  - intros y Hy. apply In_zseq in Hy. rewrite firstn_length, skipn_length. nia.
Qed.

Lemma region_at k a n c : costmap_ok k -> 0 <= fst a -> 0 <= snd a ->
  fst a + fst n <= fst (k_size k) -> snd a + snd n <= snd (k_size k) -> in_range n c ->
  nth_error (copyMapRegion k a n) (Z.to_nat (snd c * fst n + fst c)) =
  nth_error (k_char k) (Z.to_nat ((snd a + snd c) * fst (k_size k) + (fst a + fst c))).
Proof.
  intros (_ & N0 & N1 & L) A0 A1 B0 B1 [C0 C1]. unfold copyMapRegion.
  replace (Z.to_nat (snd c * fst n + fst c)) with (Z.to_nat (snd c) * Z.to_nat (fst n) + Z.to_nat (fst c))%nat by nia.
  rewrite (flat_map_row _ (Z.to_nat (fst n)) _ _ (snd c)).
  - rewrite nth_firstn by lia. rewrite nth_skipn. f_equal. nia.
  - intros y Hy. apply In_zseq in Hy. rewrite firstn_length, skipn_length. nia.
  - now apply zseq_nth.
  - lia.
Qed.

(** ** Adding the layer *)

Section Converter.
Context {E : Env}.

(** The cell of a map of n cells above cell c of a costmap. *)
Definition flip (n c : idx) : idx := (fst n - 1 - fst c, snd n - 1 - snd c).

Lemma add_costs k l m : 0 <= fst (k_size k) -> 0 <= snd (k_size k) ->
  Z.of_nat (length (k_char k)) = fst (k_size k) * snd (k_size k) ->
  size m = k_size k -> start m = (0, 0) -> reg_ok' m ->
  exists m', addLayerFromCostmap2D k l m = Ret true m' /\ reg_ok' m' /\ same_meta m m' /\
    layers m' = (if exists_layer m l then layers m else layers m ++ [l]) /\
    (forall l' i v, l' <> l -> (value_at m' l' i v <-> value_at m l' i v)) /\
    (forall l', has_layer m' l' <-> has_layer m l' \/ l' = l) /\
    (forall c v, cost_at k c v -> value_at m' l (flip (size m) c) v).
Proof.
  intros N0 N1 L SZ ST R. unfold addLayerFromCostmap2D. unfold bind at 1, get_st.
  assert (idx_eqb (size m) (k_size k) = true) as -> by (rewrite SZ; unfold idx_eqb; now rewrite !Z.eqb_refl).
  rewrite ST. cbn [idx_eqb fst snd Z.eqb andb negb]. rewrite SZ.
  rewrite (reversed_ok k (fst (k_size k) * snd (k_size k)) ltac:(nia) L). unfold bind at 1. cbn [lift].
  set (d := Mat (fst (k_size k)) (snd (k_size k)) (rev (k_char k))).
  destruct (add_ok l d m) as (m' & A & G & O & M & LL & EX); [cbn; now rewrite SZ|cbn; now rewrite SZ|].
  exists m'. unfold bind. rewrite A. split; [reflexivity|].
  split. { pose proof (pres_add' l d) as P. specialize (P ltac:(unfold wf_mat, d; cbn; rewrite rev_length; nia) m R). now rewrite A in P. }
  split; [exact M|]. split; [exact LL|]. split; [|split].
  - intros l' i v NE. specialize (O l' NE). unfold get in O. unfold value_at.
    destruct (aget (data m') l'), (aget (data m) l'); try discriminate; [injection O as <-; tauto|tauto].
  - intros l'. rewrite <- !exists_has. apply EX.
  - intros c v [[C0 C1] H]. apply get_has in G. exists d. split; auto. unfold mget, d, flip. cbn [fst snd mrows mcols mcoef in_mat].
    assert (in_mat (Mat (fst (k_size k)) (snd (k_size k)) (rev (k_char k))) (fst (k_size k) - 1 - fst c) (snd (k_size k) - 1 - snd c) = true) as ->.
    { apply in_mat_iff. cbn. lia. }
    rewrite nth_error_rev by nia. rewrite <- H. f_equal. nia.
Qed.

(** setGeometry, with what is left of the layers. *)
Definition emptied (f : string) (t : Z) (n : idx) (r : Q) (p : vec) (m : cmap) : cmap :=
  CMap f t (map (fun kv => (fst kv, mconst (fst n) (snd n) NO_INFORMATION)) (data m)) (layers m) (basic m)
    (fmul (inject_Z (fst n)) r, fmul (inject_Z (snd n)) r) r p n (0, 0).

Lemma emptied_reg f t n r p m : 0 <= fst n -> 0 <= snd n -> reg_ok' m -> reg_ok' (emptied f t n r p m).
Proof.
  intros N0 N1 [R _]. split; [|now split]. pose proof (r_mat _ R) as D. destruct R as [A B C _]. constructor; simpl; auto.
  - now rewrite akeys_map with (f := fun kv => mconst (fst n) (snd n) NO_INFORMATION).
  - intros l'. now rewrite akeys_map with (f := fun kv => mconst (fst n) (snd n) NO_INFORMATION).
  - intros l' d. rewrite (aget_map (fun x => mconst (fst n) (snd n) NO_INFORMATION)).
    destruct (aget (data m) l'); [|discriminate]. intros K; injection K as <-. split; auto. apply wf_mconst; lia.
Qed.

Lemma emptied_has f t n r p m l : has_layer (emptied f t n r p m) l <-> has_layer m l.
Proof.
  unfold has_layer, emptied. cbn [data]. rewrite (aget_map (fun x => mconst (fst n) (snd n) NO_INFORMATION)).
  destruct (aget (data m) l); cbn; split; intros [d H]; try discriminate; eauto.
Qed.

Lemma emptied_at f t n r p m l i : has_layer m l -> in_range n i -> value_at (emptied f t n r p m) l i unknown.
Proof.
  intros [d H] [I0 I1]. unfold value_at, emptied. cbn [data]. rewrite (aget_map (fun x => mconst (fst n) (snd n) NO_INFORMATION)), H.
  cbn [option_map]. eexists. split; [reflexivity|]. now apply mget_mconst.
Qed.

End Converter.
