(** Property C82: what fromMessage does not check. *)
From Coq Require Import ZArith QArith String List Bool Lia.
From Verif Require Import Base Mat GridMapMath GridIter CostMap Converter Spec ConvertSpec BaseLemmas GeoLemmas CoreProofs CoreProofs2 CoreFinal IterProofs MessageProofs RegProofs Ndebug Samples PropGrid PropBundle.
Import ListNotations.
Open Scope Z_scope.

(** ** Loops from a start index outside the map *)

Section Stray.
Context {E : Env}.

Lemma stray_unwrap b n s : 0 < fst n -> 0 < snd n -> s <> (0, 0) ->
  unwrap_index b n s = ((fst b - fst s) mod fst n, (snd b - snd s) mod snd n).
Proof.
  intros N0 N1 S. unfold unwrap_index. destruct (idx_eqb s (0, 0)) eqn:K; [apply idx_eqb_eq in K; contradiction|].
  now rewrite !wrap1_mod by lia.
Qed.
Lemma stray_wrap u n s : 0 < fst n -> 0 < snd n -> s <> (0, 0) ->
  wrap_index u n s = ((fst u + fst s) mod fst n, (snd u + snd s) mod snd n).
Proof.
  intros N0 N1 S. unfold wrap_index. destruct (idx_eqb s (0, 0)) eqn:K; [apply idx_eqb_eq in K; contradiction|].
  now rewrite !wrap1_mod by lia.
Qed.

Definition stray_cell (n s : idx) (k : Z) : idx :=
  if k =? 0 then s else ((fst (kth n k) + fst s) mod fst n, (snd (kth n k) + snd s) mod snd n).

Lemma stray_increment n s k : 0 < fst n -> 0 < snd n -> s <> (0, 0) -> 0 <= k < fst n * snd n ->
  increment_index (stray_cell n s k) n s =
  if k + 1 <? fst n * snd n then (true, stray_cell n s (k + 1)) else (false, stray_cell n s k).
Proof.
  intros N0 N1 S K. unfold increment_index.
  assert (U : unwrap_index (stray_cell n s k) n s = kth n k).
  { rewrite stray_unwrap by auto. pose proof (kth_in_range n k N1 K) as [R0 R1]. unfold stray_cell. destruct (Z.eqb_spec k 0) as [->|NZ].
    - unfold kth in *. rewrite !Z.sub_diag, !Z.mod_0_l, Z.div_0_l by lia. reflexivity.
    - cbn [fst snd]. rewrite !Zminus_mod_idemp_l, !Z.add_simpl_r, !Z.mod_small by auto. now destruct (kth n k). }
  rewrite U. cbv zeta. rewrite kth_next by auto. destruct (Z.ltb_spec (k + 1) (fst n * snd n)).
  - rewrite (proj2 (index_in_range_iff _ _)) by (apply kth_in_range; lia). rewrite stray_wrap by auto.
    unfold stray_cell. destruct (Z.eqb_spec (k + 1) 0); [lia|]. reflexivity.
  - rewrite kth_out by lia. reflexivity.
Qed.

Lemma stray_visits n s : 0 < fst n -> 0 < snd n -> s <> (0, 0) ->
  map_visits n s = Ok (map (stray_cell n s) (zseq (fst n * snd n))).
Proof.
  intros N0 N1 S. unfold map_visits. assert (exists e, map_iter_new n s = Ok (MapIter n s e s false)) as [e ->].
  { unfold map_iter_new. destruct bpol; eauto. destruct ((fst n =? 0) || (snd n =? 0)) eqn:K; eauto. lia. }
  cbn [rbind]. assert (0 < fst n * snd n) by nia.
  pose (st := fun k => MapIter n s e (stray_cell n s k) false).
  change (MapIter n s e s false) with (st 0). change (map (stray_cell n s)) with (map (fun k => mi_index (st k))).
  unfold zseq. apply (run_seq mi_past mi_index map_iter_next st).
  - unfold grid_fuel. lia.
  - lia.
  - intros; reflexivity.
  - intros k K K2. unfold st, map_iter_next. cbn [mi_index mi_size mi_start mi_end]. rewrite stray_increment by lia || auto.
    destruct (Z.ltb_spec (k + 1) (fst n * snd n)); [reflexivity|lia].
  - unfold st, map_iter_next. cbn [mi_index mi_size mi_start mi_end]. rewrite stray_increment by lia || auto.
    destruct (Z.ltb_spec (0 + Z.of_nat (Z.to_nat (fst n * snd n)) - 1 + 1) (fst n * snd n)); [lia|reflexivity].
Qed.

Lemma zseq_cons k : 0 < k -> exists r, zseq k = 0 :: r /\ (forall x, In x r <-> 1 <= x < k) /\ NoDup r.
Proof.
  intros K. pose proof (zseq_NoDup k) as ND. pose proof (In_zseq k) as I.
  assert (exists r, zseq k = 0 :: r) as [r Hr]. { unfold zseq. destruct (Z.to_nat k) eqn:Q; [lia|]. cbn [zseq_aux]. eauto. }
  exists r. split; auto. rewrite Hr in ND, I. inversion ND as [|? ? H1 H2]; subst. split; auto.
  intros x. split.
  - intros Hx. assert (x <> 0) by (intros ->; contradiction). assert (0 <= x < k) by (apply I; right; auto). lia.
  - intros Hx. assert (In x (0 :: r)) as [|] by (apply I; lia); [lia|auto].
Qed.

End Stray.

(** A loop over the whole map from a start index outside it visits that index first,
    and then every cell of the map once, except the one that the start index
    is equal to modulo the size. *)
Theorem C82_loop : forall (E : Env) n s, 0 < fst n -> 0 < snd n -> ~ in_range n s ->
  exists rest, map_visits n s = Ok (s :: rest) /\ NoDup rest /\
    forall i, In i rest <-> in_range n i /\ i <> (fst s mod fst n, snd s mod snd n).
Proof.
  intros E n s N0 N1 S. assert (S0 : s <> (0, 0)) by (intros ->; apply S; unfold in_range; cbn; lia).
  rewrite stray_visits by auto. assert (NP : 0 < fst n * snd n) by nia.
  destruct (zseq_cons (fst n * snd n) NP) as (r & -> & I & ND). cbn [map]. exists (map (stray_cell n s) r).
  assert (SC : forall k, In k r -> stray_cell n s k = ((fst (kth n k) + fst s) mod fst n, (snd (kth n k) + snd s) mod snd n)).
  { intros k K. apply I in K. unfold stray_cell. destruct (Z.eqb_spec k 0); [lia|reflexivity]. }
  assert (INJ : forall a b k, 0 <= a < k -> 0 <= b < k -> forall t, (a + t) mod k = (b + t) mod k -> a = b).
  { intros a b k A B t H. assert (((a + t) mod k - t) mod k = ((b + t) mod k - t) mod k) by now rewrite H.
    rewrite !Zminus_mod_idemp_l, !Z.add_simpl_r, !Z.mod_small in H0 by auto. auto. }
  assert (KI : forall x y, 0 <= x < fst n * snd n -> 0 <= y < fst n * snd n ->
    ((fst (kth n x) + fst s) mod fst n, (snd (kth n x) + snd s) mod snd n) = ((fst (kth n y) + fst s) mod fst n, (snd (kth n y) + snd s) mod snd n) -> x = y).
  { intros x y X Y H. injection H as H0 H1. pose proof (kth_in_range n x N1 X) as [A0 A1]. pose proof (kth_in_range n y N1 Y) as [B0 B1].
    apply INJ in H0; auto. apply INJ in H1; auto. pose proof (kth_lin n x N1) as Lx. pose proof (kth_lin n y N1) as Ly. unfold kth in *. cbn [fst snd] in *. rewrite <- Lx, <- Ly. rewrite H0, H1. reflexivity. }
  assert (K0 : kth n 0 = (0, 0)) by (unfold kth; now rewrite Z.div_0_l, Z.mod_0_l by lia).
  split; [reflexivity|]. split.
  - apply NoDup_map_inj; auto. intros x y X Y H. rewrite (SC x X), (SC y Y) in H. apply I in X, Y. apply KI; auto; lia.
  - intros i. rewrite in_map_iff. split.
    + intros (k & <- & K). rewrite (SC k K). apply I in K. split.
      * split; cbn [fst snd]; apply Z.mod_pos_bound; auto.
      * intros H. assert (k = 0); [|lia]. apply KI; try lia. rewrite K0. cbn [fst snd]. exact H.
    + intros ([H0 H1] & NE). set (u := ((fst i - fst s) mod fst n, (snd i - snd s) mod snd n)).
      assert (UR : in_range n u) by (split; cbn [u fst snd]; apply Z.mod_pos_bound; auto).
      exists (fst u * snd n + snd u).
      assert (IU : ((fst u + fst s) mod fst n, (snd u + snd s) mod snd n) = i).
      { cbn [u fst snd]. rewrite !Zplus_mod_idemp_l, !Z.sub_add, !Z.mod_small by auto. now destruct i. }
      assert (UK : In (fst u * snd n + snd u) r).
      { apply I. destruct UR as [U0 U1]. assert (fst u * snd n + snd u <> 0); [|nia]. intros Q. assert (U2 : u = (0, 0)) by (destruct u as [a b]; cbn [fst snd] in *; f_equal; nia).
        apply NE. rewrite <- IU, U2. reflexivity. }
      split; auto. rewrite SC by auto. rewrite kth_inv by auto. exact IU.
Qed.
Print Assumptions C82_loop.

(** A message is converted without a look at its start index; the map can be shown as
    an occupancy grid exactly if that index is in the map, otherwise the
    conversion reads outside the layer. *)
Theorem C82_message : forall (E : Env) g m0 m, real_or_double E -> reg_ok' m0 -> fromMessage g m0 = Ret true m ->
  0 < fst (size m) -> 0 < snd (size m) -> stamp_ok m ->
  start m = g_index g /\
  forall l old, In l (layers m) ->
    (in_range (size m) (g_index g) -> exists o, toOccupancyGrid m l old = Ok o) /\
    (~ in_range (size m) (g_index g) -> toOccupancyGrid m l old = Fault OutOfBounds).
Proof.
  intros E g m0 m X R0 F N0 N1 S.
  assert (R : reg_ok' m). { pose proof (pres_fromMessage (rod_nonneg E X) g m0 R0) as P. rewrite F in P. exact P. }
  assert (ST : start m = g_index g).
  { unfold fromMessage, bind at 1, setTimestamp, modify at 1 in F. unfold bind at 1, setFrameId, modify at 1 in F. unfold bind at 1 in F.
    destruct (setGeometry _ _ _ _) as [u m1| |]; try discriminate F. destruct (negb _); [discriminate F|].
    unfold bind in F. destruct (mfor _ _ m1) as [u2 m2| |]; try discriminate F. cbn in F. injection F as <-. reflexivity. }
  split; auto. intros l old HL. assert (H : has_layer m l). { apply (r_same _ (proj1 R)) in HL. now apply BaseLemmas.aget_In in HL. }
  split.
  - intros I. rewrite <- ST in I. destruct (occ_run m l old I (proj1 R) S H) as (d & -> & _). eauto.
  - intros I. destruct (C82_loop E (size m) (start m) N0 N1 ltac:(now rewrite ST)) as (rest & V & _).
    unfold toOccupancyGrid, from_nsec. destruct S as [S0 S1].
    assert (stamp m / 1000000000 < 4294967296) by (apply Z.div_lt_upper_bound; lia).
    destruct (Z.ltb_spec (stamp m / 1000000000) 4294967296); [|lia]. cbn [rbind]. rewrite V. cbn [rbind mfor].
    unfold occ_cell, bind, at_. destruct H as [d Hd]. rewrite Hd.
    destruct (r_mat _ (proj1 R) _ _ Hd) as (W & A & B).
    assert (mget d (fst (start m)) (snd (start m)) = None) as ->; [|reflexivity].
    unfold mget. destruct (in_mat d _ _) eqn:K; auto. apply in_mat_iff in K. exfalso. apply I. rewrite <- ST. unfold in_range. lia.
Qed.
Print Assumptions C82_message.

(** ** Builds without assertions *)

Section Nd.
Context {E : Env}.

Lemma nd_add_array_same la m : add_array la m <> Flt AssertFailed -> nd_add_array la m = add_array la m.
Proof.
  destruct la as [l a]. unfold add_array, nd_add_array, bind. cbn [fst snd]. destruct (array_to_matrix a); cbn [lift]; auto.
  unfold add, nd_add. destruct (negb _); [congruence|]. auto.
Qed.
Lemma nd_arrays_same las : forall m, mfor las add_array m <> Flt AssertFailed -> mfor las nd_add_array m = mfor las add_array m.
Proof.
  induction las as [|la t IH]; intros m H; auto. cbn [mfor] in *.
  rewrite nd_add_array_same; [|intros K; rewrite K in H; congruence].
  destruct (add_array la m); auto.
Qed.
Lemma nd_geometry_same (RN : rnd_nonneg) l r p m : setGeometry l r p m <> Flt AssertFailed -> nd_setGeometry l r p m = setGeometry l r p m.
Proof.
  unfold setGeometry, nd_setGeometry. destruct (Qlt_bool 0 (fst l)) eqn:A, (Qlt_bool 0 (snd l)) eqn:B, (Qlt_bool 0 r) eqn:C; cbn [andb negb]; try (intros H; exfalso; apply H; reflexivity).
  intros _. apply Qlt_bool_iff in A, B, C. destruct (Qeq_bool r 0) eqn:Z0; [apply Qeq_bool_eq in Z0; rewrite Z0 in C; now apply Qlt_irrefl in C|].
  cbn [fst snd]. assert (NN : forall q, (0 < q)%Q -> 0 <= Qround_away (fdiv q r)).
  { intros q Q. apply Qround_away_nonneg. unfold fdiv. apply RN. apply Qle_shift_div_l; auto. rewrite Qmult_0_l. now apply Qlt_le_weak. }
  pose proof (NN _ A). pose proof (NN _ B).
  destruct (Z.ltb_spec (Qround_away (fdiv (fst l) r)) 0); [lia|]. destruct (Z.ltb_spec (Qround_away (fdiv (snd l) r)) 0); [lia|]. reflexivity.
Qed.

Lemma nd_get las : forall m m' u, mfor las nd_add_array m = Ret u m' -> size m' = size m /\
  forall l, match last_with l las with
            | Some a => exists d, array_to_matrix a = Ok d /\ aget (data m') l = Some d
            | None => aget (data m') l = aget (data m) l
            end.
Proof.
  induction las as [|[k a] t IH]; intros m m' u H.
  - cbn in H. injection H as _ <-. split; [reflexivity|]. intros l. reflexivity.
  - cbn [mfor] in H. unfold nd_add_array at 1, bind in H. cbn [fst snd] in H.
    destruct (array_to_matrix a) as [d| |] eqn:D; cbn [lift] in H; try discriminate H.
    assert (exists m1, nd_add k d m = Ret tt m1 /\ size m1 = size m /\ forall l, aget (data m1) l = if String.eqb l k then Some d else aget (data m) l) as (m1 & H1 & S1 & G1).
    { unfold nd_add, exists_layer, amem. destruct (aget (data m) k) eqn:K; (eexists; split; [reflexivity|]; split; [reflexivity|]); intros l; cbn [data set_data set_layers].
      - rewrite aget_aset. unfold amem. rewrite K. reflexivity.
      - rewrite aget_ainsert. unfold amem. rewrite K. reflexivity. }
    rewrite H1 in H. destruct (IH _ _ _ H) as [S2 G2]. split; [congruence|]. intros l. cbn [last_with]. specialize (G2 l).
    destruct (last_with l t); auto. rewrite G2, G1. destruct (String.eqb l k); eauto.
Qed.

End Nd.

(** Without assertions every message that does not break one is converted the same. *)
Theorem C82_same : forall (E : Env) g m, real_or_double E -> fromMessage g m <> Flt AssertFailed -> nd_fromMessage g m = fromMessage g m.
Proof.
  intros E g m X. unfold fromMessage, nd_fromMessage, setTimestamp, setFrameId, modify, bind. intros H.
  match type of H with context [setGeometry ?a ?b ?c ?s] => assert (G : nd_setGeometry a b c s = setGeometry a b c s) end.
  { apply nd_geometry_same; [now apply rod_nonneg|]. intros K. rewrite K in H. congruence. }
  rewrite G. destruct (setGeometry _ _ _ _) as [u m1| |]; auto. destruct (negb _); auto.
  rewrite nd_arrays_same; auto. intros K. rewrite K in H. congruence.
Qed.
Print Assumptions C82_same.

(** What at() then reads for a cell of the map: the element of the array where Eigen
    expects it, given the rows that the array declares; past the declared
    size, or with an array labelled row-major, memory outside of the layer. *)
Theorem C82_ndebug : forall (E : Env) g m0 m l a, nd_fromMessage g m0 = Ret true m ->
  last_with l (combine (g_layers g) (g_data g)) = Some a ->
  exists c r more, a_dims a = c :: r :: more /\
    (0 <= snd c -> 0 <= snd r -> forall i, in_range (size m) i ->
     let k := fst i + snd i * snd r in
     (fst c <> "row_index"%string -> k < snd r * snd c -> exists v, nd_at m l i = Ok v /\ array_at (snd r, snd c) a i v) /\
     (fst c <> "row_index"%string -> snd r * snd c <= k -> nd_at m l i = Fault OutOfBounds) /\
     (fst c = "row_index"%string -> nd_at m l i = Fault OutOfBounds)).
Proof.
  intros E g m0 m l a F L. unfold nd_fromMessage, bind at 1, setTimestamp, modify at 1 in F. unfold bind at 1, setFrameId, modify at 1 in F. unfold bind at 1 in F.
  destruct (nd_setGeometry _ _ _ _) as [u m1| |]; try discriminate F. destruct (negb _); [discriminate F|].
  unfold bind in F. destruct (mfor _ _ m1) as [u2 m2| |] eqn:W; try discriminate F. cbn in F. injection F as <-.
  destruct (nd_get _ _ _ _ W) as [S G]. specialize (G l). rewrite L in G. destruct G as (d & D & G).
  unfold array_to_matrix in D. destruct (a_dims a) as [|c [|r more]] eqn:A; try discriminate D.
  exists c, r, more. split; auto. intros C0 R0 i [I0 I1]. cbn [size set_start set_basic] in I0, I1. cbv zeta.
  unfold nd_at. cbn [data set_start set_basic]. rewrite G. fold row_index.
  destruct (String.eqb_spec (fst c) row_index) as [e|e].
  - injection D as <-. cbn [mrows mcoef]. split; [tauto|]. split; [tauto|]. intros _. rewrite Z.mul_0_r, Z.add_0_r.
    destruct (_ <? 0); auto. now destruct (Z.to_nat (fst i)).
  - destruct (Z.ltb_spec (Z.of_nat (length (a_data a))) (snd r * snd c)); [discriminate D|]. injection D as <-. cbn [mrows mcoef].
    destruct (Z.ltb_spec (fst i + snd i * snd r) 0); [nia|]. split; [|split]; [| |tauto].
    + intros _ K. assert (KN : (Z.to_nat (fst i + snd i * snd r) < Z.to_nat (snd r * snd c))%nat) by lia.
      rewrite nth_firstn by auto. unfold array_at. cbn [fst]. destruct (nth_error (a_data a) _) as [v|] eqn:N; [exists v; auto|].
      apply nth_error_None in N. lia.
    + intros _ K. rewrite (proj2 (nth_error_None _ _)); auto. rewrite firstn_length. lia.
Qed.
Print Assumptions C82_ndebug.

(** ** Cases *)

Local Definition column (rows cols : Z) (vs : list Z) : marray := MArray [("column_index"%string, cols); ("row_index"%string, rows)] vs.
Local Definition note (i : idx) (a : marray) : msg := Msg (7, 5) "map" 1%Q (3%Q, 2%Q) (0%Q, 0%Q) ["a"%string] [] [a] i.
Local Definition six : list Z := [0; 50; 100; 150; 200; 254].

(** Start index (4, 1) on a 3x2 map: visited first, in place of (1, 1). *)
Example C82_loop_case : forall E : Env, @map_visits E (3, 2) (4, 1) = Ok [(4, 1); (1, 0); (2, 1); (2, 0); (0, 1); (0, 0)].
Proof. intros [r []]; reflexivity. Qed.

(** Of the three messages, one is well-formed, one has a start index outside the map and
    one has a 1x1 array for 3x2 cells. *)
Example C82_case : forall p, let E := binary64 p in
  (exists m o, fromMessage (note (1, 1) (column 3 2 six)) (new_map []) = Ret true m /\ toOccupancyGrid m "a" [] = Ok o) /\
  (exists m, fromMessage (note (4, 1) (column 3 2 six)) (new_map []) = Ret true m /\ toOccupancyGrid m "a" [] = Fault OutOfBounds) /\
  fromMessage (note (0, 0) (column 1 1 [9])) (new_map []) = Flt AssertFailed.
Proof.
  intros p E. split; [|split].
  - exists (after (fromMessage (note (1, 1) (column 3 2 six))) (new_map [])).
    destruct p; (eexists; split; [vm_compute; reflexivity|vm_compute; reflexivity]).
  - exists (after (fromMessage (note (4, 1) (column 3 2 six))) (new_map [])).
    destruct p; (split; vm_compute; reflexivity).
  - destruct p; vm_compute; reflexivity.
Qed.

(** Without assertions the last one is accepted, and reading a cell of the map leaves
    the memory of the layer. *)
Theorem C82_ndebug_refuted : forall p, let E := binary64 p in exists m,
  nd_fromMessage (note (0, 0) (column 1 1 [9])) (new_map []) = Ret true m /\ size m = (3, 2) /\
  nd_at m "a" (0, 0) = Ok 9 /\ nd_at m "a" (2, 1) = Fault OutOfBounds.
Proof.
  intros p E. exists (after (nd_fromMessage (note (0, 0) (column 1 1 [9]))) (new_map [])).
  destruct p; (split; [|split; [|split]]); vm_compute; reflexivity.
Qed.
Print Assumptions C82_ndebug_refuted.
