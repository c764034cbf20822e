(** Properties C50-C52 and the occupancy grid part of C26: grid maps and
    occupancy grids. *)
From Coq Require Import ZArith QArith Qround Qabs Qfield String List Bool Lia Lqa.
From Coq Require Import ZifyBool.
From Verif Require Import Base Mat GridMapMath GridIter CostMap Converter Spec ConvertSpec BaseLemmas GeoLemmas CoreProofs CoreProofs2 CoreFinal IterProofs AddDataProofs FloatLemmas FloatMono MessageProofs PropMessage Samples.
Import ListNotations.
Open Scope Z_scope.

(** ** C51 *)

Lemma costs_all (P : Z -> bool) : forallb P (zseq 256) = true -> forall c, 0 <= c <= 255 -> P c = true.
Proof. intros H c Hc. rewrite forallb_forall in H. apply H, In_zseq. lia. Qed.

Theorem C51_values : forall v, 0 <= v <= 255 -> occ_value v = occupancy v.
Proof.
  intros v Hv. apply Z.eqb_eq. revert v Hv. apply (costs_all (fun v => occ_value v =? occupancy v)). vm_compute. reflexivity.
Qed.
Print Assumptions C51_values.

Theorem C51_shape :
  occ_value 255 = -1 /\ occ_value 254 = 100 /\ occ_value 253 = 99 /\ occ_value 252 = 98 /\ occ_value 0 = 0 /\
  (forall a b, 0 <= a <= b -> b <= 254 -> occ_value a <= occ_value b) /\
  (forall v, 0 <= v <= 252 -> 0 <= occ_value v <= 98) /\
  (forall v, 0 <= v <= 255 -> -128 <= occ_value v <= 127).
Proof.
  assert (S : forall v, 0 <= v <= 252 -> occ_value v = 98 * v / 252).
  { intros v Hv. rewrite C51_values by lia. unfold occupancy, unknown, lethal, inscribed.
    destruct (v =? 255) eqn:A; [lia|]. destruct (v =? 254) eqn:B; [lia|]. destruct (v =? 253) eqn:C; [lia|]. reflexivity. }
  assert (B : forall v, 0 <= v <= 252 -> 0 <= occ_value v <= 98).
  { intros v Hv. rewrite S by lia. split; [apply Z.div_pos; lia|]. apply Z.div_le_upper_bound; lia. }
  split; [reflexivity|]. split; [reflexivity|]. split; [reflexivity|]. split; [reflexivity|]. split; [reflexivity|].
  split; [|split; [exact B|]].
  - intros a b H1 H2. destruct (Z_le_gt_dec b 252).
    + rewrite !S by lia. apply Z.div_le_mono; lia.
    + assert (b = 253 \/ b = 254) as [-> | ->] by lia.
      * change (occ_value 253) with 99. destruct (Z.eq_dec a 253) as [->|]; [cbn; lia|]. pose proof (B a). lia.
      * change (occ_value 254) with 100. destruct (Z.eq_dec a 254) as [->|]; [cbn; lia|].
        destruct (Z.eq_dec a 253) as [->|]; [cbn; lia|]. pose proof (B a). lia.
  - intros v Hv. destruct (Z_le_gt_dec v 252); [pose proof (B v); lia|].
    assert (v = 253 \/ v = 254 \/ v = 255) as [-> | [-> | ->]] by lia; cbn; lia.
Qed.
Print Assumptions C51_shape.

Example C51_case : map occ_value [1; 2; 3; 100; 128; 251] = [0; 0; 1; 38; 49; 97].
Proof. vm_compute. reflexivity. Qed.

(** ** C52 *)
Section Occ.
Context {E : Env}.

Definition slot (n : idx) (i : idx) : Z := fst n * snd n - linear_index i n - 1.

Lemma slot_range n i : in_range n i -> 0 <= slot n i < fst n * snd n.
Proof. intros [A B]. unfold slot, linear_index. nia. Qed.

Lemma slot_inj n i j : in_range n i -> in_range n j -> slot n i = slot n j -> i = j.
Proof.
  intros [A B] [C D] H. unfold slot, linear_index in H.
  destruct i as [i0 i1], j as [j0 j1], n as [n0 n1]. cbn [fst snd] in *.
  assert (i1 = j1) by nia. subst. f_equal. lia.
Qed.

Lemma occ_loop m l (f : idx -> Z) vs : NoDup vs ->
  (forall i, In i vs -> in_range (size m) i /\ at_ m l i = Ok (f i)) ->
  forall d, Z.of_nat (length d) = fst (size m) * snd (size m) ->
  exists d', mfor vs (occ_cell m l) d = Ret tt d' /\ length d' = length d /\
    (forall i, In i vs -> nth_error d' (Z.to_nat (slot (size m) i)) = Some (occ_value (f i))) /\
    (forall k, (forall i, In i vs -> Z.to_nat (slot (size m) i) <> k) -> nth_error d' k = nth_error d k).
Proof.
  induction vs as [|x t IH]; intros ND H d L.
  - exists d. split; [reflexivity|]. split; auto. split; [intros i []|auto].
  - inversion ND as [|? ? NI ND']; subst. destruct (H x (or_introl eq_refl)) as [Rx Ax].
    pose proof (slot_range _ _ Rx) as SR.
    assert (B : occ_cell m l x d = Ret tt (lupd d (Z.to_nat (slot (size m) x)) (occ_value (f x)))).
    { unfold occ_cell, bind. rewrite Ax. cbn [lift]. unfold occ_write. fold (slot (size m) x).
      rewrite (proj2 (Z.leb_le 0 (slot (size m) x))), (proj2 (Z.ltb_lt (slot (size m) x) (Z.of_nat (length d)))) by lia. reflexivity. }
    destruct (IH ND' (fun i Hi => H i (or_intror Hi)) (lupd d (Z.to_nat (slot (size m) x)) (occ_value (f x)))) as (d' & F & L' & V & U).
    { now rewrite lupd_length. }
    exists d'. cbn [mfor]. rewrite B. split; auto. rewrite lupd_length in L'. split; auto. split.
    + intros i [->|Hi]; [|now apply V].
      rewrite U.
      * rewrite nth_error_lupd. destruct (Nat.eqb_spec (Z.to_nat (slot (size m) i)) (Z.to_nat (slot (size m) i))); [|congruence].
        destruct (Nat.ltb_spec (Z.to_nat (slot (size m) i)) (length d)); [reflexivity|lia].
      * intros j Hj EQ. destruct (H j (or_intror Hj)) as [Rj _]. pose proof (slot_range _ _ Rj).
        assert (j = i) by (apply (slot_inj (size m)); auto; lia). subst. contradiction.
    + intros k Hk. rewrite U by (intros i Hi; apply Hk; right; auto). rewrite nth_error_lupd.
      destruct (Nat.eqb_spec k (Z.to_nat (slot (size m) x))) as [e|e]; auto. exfalso. apply (Hk x); [left|]; auto.
Qed.

Lemma vresize_length n d : Z.of_nat (length (vresize n d)) = Z.max 0 n.
Proof. unfold vresize. rewrite app_length, firstn_length, repeat_length. lia. Qed.

(** The grid for any map with cells: the value of each buffer cell goes to the
    mirrored place, whatever the start index. *)
Lemma occ_run m l old : in_range (size m) (start m) -> reg_ok m -> stamp_ok m -> has_layer m l ->
  exists d, toOccupancyGrid m l old = Ok (Occ (frame m) (stamp m / 1000000000, stamp m mod 1000000000) (rnd32 (resn m)) (fst (size m)) (snd (size m))
       (fsub (fst (pos m)) (fmul (1#2) (fst (len m))), fsub (snd (pos m)) (fmul (1#2) (snd (len m)))) d) /\
    Z.of_nat (length d) = fst (size m) * snd (size m) /\
    (forall i v, in_range (size m) i -> value_at m l i v -> nth_error d (Z.to_nat (slot (size m) i)) = Some (occ_value v)).
Proof.
  intros G R S HL. unfold toOccupancyGrid, from_nsec. destruct S as [S0 S1]. assert (0 < fst (size m) /\ 0 < snd (size m)) as [N0 N1] by (destruct G; lia).
  assert (stamp m / 1000000000 < 4294967296) by (apply Z.div_lt_upper_bound; lia).
  destruct (Z.ltb_spec (stamp m / 1000000000) 4294967296); [|lia]. cbn [rbind].
  rewrite map_visits_ok by exact G. cbn [rbind].
  destruct (occ_loop m l (fun i => match at_ m l i with Ok v => v | _ => 0 end) (visit_list (size m) (start m))) with
    (d := vresize (fst (size m) * snd (size m)) old) as (d & F & L & V & _).
  - now apply visit_list_NoDup.
  - intros i Hi. apply visit_list_In in Hi; [|exact G]. split; auto. destruct (reg_value m l i R HL Hi) as [v Hv].
    apply at_value in Hv. now rewrite Hv.
  - rewrite vresize_length. nia.
  - rewrite F. exists d. split; [reflexivity|]. split; [rewrite L, vresize_length; nia|].
    intros i v Hi Hv. rewrite V by (apply visit_list_In; auto). apply at_value in Hv. now rewrite Hv.
Qed.

End Occ.

(** Every cell of the grid is the place of exactly one cell of an unmoved map
    and holds its cost on the occupancy scale. *)
Theorem C52_unmoved : forall (E : Env), Exact E -> forall m l old,
  geo_ok m -> reg_ok m -> stamp_ok m -> start m = (0, 0) -> has_layer m l ->
  (forall i v, value_at m l i v -> 0 <= v <= 255) ->
  exists o, toOccupancyGrid m l old = Ok o /\
    o_frame o = frame m /\ to_nsec (o_stamp o) = stamp m /\ o_width o = fst (size m) /\ o_height o = snd (size m) /\
    veq (o_origin o) (lower m) /\ Z.of_nat (length (o_data o)) = o_width o * o_height o /\
    (forall i v, in_range (size m) i -> value_at m l i v ->
       exists x y, occ_centre o (resn m) x y (centre m i) /\ occ_at o x y = Some (occupancy v)) /\
    (forall x y, 0 <= x < o_width o -> 0 <= y < o_height o ->
       exists i, in_range (size m) i /\ occ_centre o (resn m) x y (centre m i)).
Proof.
  intros E X m l old G R S ST HL BV. destruct (occ_run m l old (g_start _ G) R S HL) as (d & F & L & V).
  eexists. split; [exact F|]. cbn [o_frame o_stamp o_width o_height o_origin o_data].
  destruct (g_size _ G) as [N0 N1]. pose proof (g_res _ G) as RP. destruct (g_len _ G) as [L0 L1]. cbn [fst snd] in L0, L1.
  split; [reflexivity|]. split. { unfold to_nsec. cbn [fst snd]. rewrite (Z.div_mod (stamp m) 1000000000) at 3 by lia. ring. }
  split; [reflexivity|]. split; [reflexivity|].
  assert (OX : forall a b, (fsub a (fmul (1#2) b) == a - b / 2)%Q).
  { intros a b. unfold fsub, fmul. rewrite (X _). rewrite (X _). field. }
  split. { split; unfold lower; cbn [fst snd]; apply OX. }
  split; [exact L|].
  assert (WC : forall a L r n k, (L == inject_Z n * r)%Q -> (centre1 L a r k == a - L / 2 + (inject_Z (n - 1 - k) + (1#2)) * r)%Q).
  { intros a L2 r n k H. unfold centre1. replace (n - 1 - k) with (n + - k + -1) by ring. rewrite !inject_Z_plus, inject_Z_opp, H.
    change (inject_Z (-1)) with (-1)%Q. field. }
  assert (OC : forall i, in_range (size m) i ->
    occ_centre (Occ (frame m) (stamp m / 1000000000, stamp m mod 1000000000) (rnd32 (resn m)) (fst (size m)) (snd (size m))
       (fsub (fst (pos m)) (fmul (1#2) (fst (len m))), fsub (snd (pos m)) (fmul (1#2) (snd (len m)))) d)
      (resn m) (fst (size m) - 1 - fst i) (snd (size m) - 1 - snd i) (centre m i)).
  { intros i [I0 I1]. unfold occ_centre, centre, world_index. cbn [o_origin fst snd]. rewrite !OX, ST. cbn [fst snd].
    rewrite !Z.sub_0_r, !Z.mod_small by lia. split; apply WC; auto. }
  split.
  - intros i v Hi Hv. exists (fst (size m) - 1 - fst i), (snd (size m) - 1 - snd i). split; [apply OC; auto|].
    pose proof Hi as [I0 I1]. unfold occ_at. cbn [o_width o_height o_data].
    match goal with |- (if ?b then _ else _) = _ => replace b with true by (symmetry; lia) end.
    replace (fst (size m) - 1 - fst i + (snd (size m) - 1 - snd i) * fst (size m)) with (slot (size m) i)
      by (unfold slot, linear_index; ring).
    rewrite (V i v Hi Hv). now rewrite C51_values by (eapply BV; eauto).
  - intros x y Hx Hy. exists (fst (size m) - 1 - x, snd (size m) - 1 - y).
    assert (Hi : in_range (size m) (fst (size m) - 1 - x, snd (size m) - 1 - y)) by (split; cbn [fst snd]; lia).
    split; auto. pose proof (OC _ Hi) as K. cbn [fst snd] in K.
    replace (fst (size m) - 1 - (fst (size m) - 1 - x)) with x in K by ring.
    replace (snd (size m) - 1 - (snd (size m) - 1 - y)) with y in K by ring. exact K.
Qed.
Print Assumptions C52_unmoved.

Example C52_case : geo_ok sample0 /\ reg_ok sample0 /\ start sample0 = (0, 0) /\
  match toOccupancyGrid (E := exact_wrap) sample0 "b" [7; 7] with
  | Ok o => (o_width o, o_height o, o_origin o, occ_at o 0 0, occ_at o 4 3) = (5, 4, (-3#4, -2#1)%Q, Some 46, Some 38) /\
            at_ sample0 "b" (4, 3) = Ok 119 /\ at_ sample0 "b" (0, 0) = Ok 100
  | _ => False
  end.
Proof. split; [apply geo_okb_ok; vm_compute; reflexivity|]. split; [apply reg_okb_ok; vm_compute; reflexivity|]. conj_vm. Qed.

(** On a moved map the cell of the grid at the place of a map cell holds another
    cell's cost. *)
Theorem C52_moved_refuted : exists m l i v o x y, geo_ok m /\ reg_ok' m /\ value_at m l i v /\
  toOccupancyGrid (E := exact_wrap) m l [] = Ok o /\ occ_centre o (resn m) x y (centre m i) /\ occ_at o x y <> Some (occupancy v) /\
  occ_at o x y <> None.
Proof.
  exists sample, "b"%string, (3, 2), 114.
  destruct (toOccupancyGrid (E := exact_wrap) sample "b" []) as [o| |] eqn:H; [|vm_compute in H; discriminate|vm_compute in H; discriminate].
  exists o, 4, 3. split; [exact sample_geo|]. split; [exact sample_reg|]. split; [apply at_value; vm_compute; reflexivity|].
  split; [reflexivity|]. vm_compute in H. injection H as <-. split; [split; vm_compute; reflexivity|].
  split; [vm_compute; discriminate|discriminate].
Qed.
Print Assumptions C52_moved_refuted.

(** The resolution in the grid is a float: within half a unit in the last place. *)
Theorem C52_resolution : forall (E : Env) m l old o, toOccupancyGrid m l old = Ok o -> (0 < resn m)%Q ->
  (Qabs (o_resn o - resn m) <= resn m * (1 # 16777216))%Q.
Proof.
  intros E m l old o H RP. assert (o_resn o = rnd32 (resn m)) as ->.
  { unfold toOccupancyGrid in H. destruct (from_nsec (stamp m)); cbn [rbind] in H; try discriminate.
    destruct (map_visits (size m) (start m)); cbn [rbind] in H; try discriminate.
    destruct (mfor _ _ _); try discriminate. injection H as <-. reflexivity. }
  pose proof (rne_error 24 (resn m) ltac:(lia)) as K. rewrite (Qabs_pos (resn m)) in K by lra.
  unfold rnd32. change (pow2 (-24)) with (1 # 16777216)%Q in K. rewrite Qmult_comm. exact K.
Qed.
Print Assumptions C52_resolution.

(** C26: a map without cells makes toOccupancyGrid fail, for either release of
    grid_map. *)
Theorem C26_occupancy : forall (E : Env) m l old, reg_ok' m -> stamp_ok m -> has_layer m l ->
  start m = (0, 0) -> (fst (size m) = 0 \/ snd (size m) = 0) -> exists f, toOccupancyGrid m l old = Fault f.
Proof.
  intros E m l old R [S0 S1] [d Hd] ST Z0. unfold toOccupancyGrid, from_nsec.
  assert (stamp m / 1000000000 < 4294967296) by (apply Z.div_lt_upper_bound; lia).
  destruct (Z.ltb_spec (stamp m / 1000000000) 4294967296); [|lia]. cbn [rbind]. rewrite ST.
  destruct R as [R [N0 N1]]. destruct bpol eqn:P.
  - rewrite map_visits_empty by auto. cbn [rbind mfor]. unfold occ_cell, bind, at_. rewrite Hd.
    destruct (r_mat _ R _ _ Hd) as (W & A & B). cbn [fst snd].
    assert (mget d 0 0 = None) as ->.
    { unfold mget. destruct (in_mat d 0 0) eqn:K; auto. apply in_mat_iff in K. lia. }
    cbn [of_opt lift]. eauto.
  - unfold map_visits, map_iter_new. rewrite P. assert ((fst (size m) =? 0) || (snd (size m) =? 0) = true) as -> by lia. cbn [rbind]. eauto.
Qed.
Print Assumptions C26_occupancy.

Example C26_occupancy_case : let m := after (setGeometry (E := exact_clamp) (1#4, 1#1)%Q 1%Q (0, 0)%Q) (new_map ["a"%string]) in
  size m = (0, 1) /\ toOccupancyGrid (E := exact_clamp) m "a" [] = Fault OutOfBounds /\
  toOccupancyGrid (E := exact_wrap) m "a" [] = Fault DivByZero.
Proof. conj_vm. Qed.

(** ** C50 *)

(** The float nearest to 100 v / 255. *)
Definition percent (v : Z) : Q := rne 24 (100 * inject_Z v / 255).

(** In exact arithmetic, and in double arithmetic, the stored float is the one
    nearest to the exact quotient. *)
Lemma grid_value_exact (E : Env) (X : Exact E) v : (grid_value v == percent v)%Q.
Proof.
  unfold grid_value, percent, rnd32. apply rne_comp. unfold fdiv, fmul. rewrite (X _), (X _). reflexivity.
Qed.

Lemma grid_value_float p v : 0 <= v <= 255 -> (grid_value (E := binary64 p) v == percent v)%Q.
Proof.
  intros Hv. apply Qeq_bool_iff. revert v Hv.
  apply (costs_all (fun v => Qeq_bool (grid_value (E := binary64 p) v) (percent v))).
  unfold grid_value, fdiv, fmul. cbn [rnd binary64]. vm_compute. reflexivity.
Qed.

Theorem C50_scale :
  (percent 0 == 0)%Q /\ (percent 255 == 100)%Q /\
  (forall a b, 0 <= a < b -> b <= 255 -> (percent a < percent b)%Q) /\
  (forall v, 0 <= v <= 255 -> (Qabs (percent v - 100 * inject_Z v / 255) <= 1 # 160000)%Q) /\
  (forall (E : Env), Exact E -> forall v, (grid_value v == percent v)%Q) /\
  (forall p v, 0 <= v <= 255 -> (grid_value (E := binary64 p) v == percent v)%Q).
Proof.
  split; [reflexivity|]. split; [reflexivity|].
  assert (ER : forall v, 0 <= v <= 255 -> (Qabs (percent v - 100 * inject_Z v / 255) <= 1 # 160000)%Q).
  { intros v Hv. pose proof (rne_error 24 (100 * inject_Z v / 255) ltac:(lia)) as K. fold (percent v) in K.
    assert (0 <= inject_Z v /\ inject_Z v <= 255)%Q as [V0 V1].
    { change 0%Q with (inject_Z 0). change 255%Q with (inject_Z 255). rewrite <- !Zle_Qle. lia. }
    assert (100 * inject_Z v / 255 == (20#51) * inject_Z v)%Q as Q by field. 
    set (q := (100 * inject_Z v / 255)%Q) in *. clearbody q.
    rewrite (Qabs_pos q) in K by lra. change (pow2 (- (24))) with (1 # 16777216)%Q in K. lra. }
  split; [|split; [exact ER|split]].
  - intros a b H1 H2. pose proof (ER a ltac:(lia)) as A. pose proof (ER b ltac:(lia)) as B.
    apply Qabs_Qle_condition in A, B.
    assert (inject_Z a + 1 <= inject_Z b)%Q. { change 1%Q with (inject_Z 1). rewrite <- inject_Z_plus, <- Zle_Qle. lia. }
    assert (forall v, 100 * inject_Z v / 255 == (20#51) * inject_Z v)%Q as Q by (intros; field). rewrite Q in A, B. lra.
  - exact @grid_value_exact.
  - exact @grid_value_float.
Qed.
Print Assumptions C50_scale.

Example C50_scale_case : (percent 51 == 20)%Q /\ (percent 1 == 13158601 # 33554432)%Q /\ (percent 254 == 13055799 # 131072)%Q.
Proof. conj_vm. Qed.

Lemma amem_smem {A} (d : list (string * A)) ls k : (forall l, In l ls <-> In l (akeys d)) -> amem d k = smem k ls.
Proof.
  intros H. destruct (smem k ls) eqn:S.
  - apply amem_In, H, smem_In, S.
  - apply smem_false in S. destruct (amem d k) eqn:K; auto. exfalso. now apply S, H, amem_In.
Qed.

Section Grid.
Context {E : Env}.

Definition grid_mat (d : mat) : Z * Z * list (option Q) := (mrows d, mcols d, map (fun v => Some (grid_value v)) (mcoef d)).

Lemma g_add_ok l d g : m_size g = (fst (fst d), snd (fst d)) -> (forall k, In k (m_layers g) <-> In k (akeys (m_data g))) ->
  exists g', g_add l d g = Ret tt g' /\ m_frame g' = m_frame g /\ m_stamp g' = m_stamp g /\ m_len g' = m_len g /\
    m_resn g' = m_resn g /\ m_pos g' = m_pos g /\ m_size g' = m_size g /\ m_start g' = m_start g /\
    m_layers g' = (if smem l (m_layers g) then m_layers g else m_layers g ++ [l]) /\
    (forall k, aget (m_data g') k = if String.eqb k l then Some d else aget (m_data g) k) /\
    (forall k, In k (m_layers g') <-> In k (akeys (m_data g'))).
Proof.
  intros Sz K. unfold g_add. rewrite Sz. cbn [fst snd]. rewrite !Z.eqb_refl. cbn [andb negb].
  rewrite (amem_smem (m_data g) (m_layers g) l K). destruct (smem l (m_layers g)) eqn:S; eexists; (split; [reflexivity|]); cbn [m_frame m_stamp m_data m_layers m_len m_resn m_pos m_size m_start];
    do 7 (split; [auto|]); (split; [reflexivity|]); (split; [intros k|]).
  - rewrite aget_aset. destruct (String.eqb_spec k l); auto. subst.  rewrite (amem_smem (m_data g) (m_layers g) l K), S. auto.
  - intros k. rewrite akeys_aset. apply K.
  - rewrite aget_ainsert. destruct (String.eqb_spec k l); auto. subst.  rewrite (amem_smem (m_data g) (m_layers g) l K), S. auto.
  - intros k. rewrite akeys_ainsert, (amem_smem (m_data g) (m_layers g) l K), S, !in_app_iff. now rewrite K.
Qed.

Lemma grid_loop m : forall ls g, (forall l, In l ls -> exists d, aget (data m) l = Some d /\ mrows d = fst (size m) /\ mcols d = snd (size m)) ->
  m_size g = size m -> (forall k, In k (m_layers g) <-> In k (akeys (m_data g))) ->
  exists g', mfor ls (grid_layer m) g = Ret tt g' /\ m_frame g' = m_frame g /\ m_stamp g' = m_stamp g /\ m_len g' = m_len g /\
    m_resn g' = m_resn g /\ m_pos g' = m_pos g /\ m_size g' = m_size g /\ m_start g' = m_start g /\
    m_layers g' = appended (m_layers g) ls /\
    (forall k, aget (m_data g') k = if smem k ls then Some (grid_mat (matrix_of m k)) else aget (m_data g) k).
Proof.
  induction ls as [|l t IH]; intros g HL Sz K.
  - exists g. split; [reflexivity|]. do 8 (split; [auto|]). auto.
  - destruct (HL l (or_introl eq_refl)) as (d & Hd & A & B).
    destruct (g_add_ok l (grid_mat d) g) as (g1 & H1 & F1 & F2 & F3 & F4 & F5 & F6 & F7 & L1 & D1 & K1); auto.
    { rewrite Sz. unfold grid_mat. cbn [fst snd]. rewrite A, B. now destruct (size m). }
    destruct (IH g1 (fun x Hx => HL x (or_intror Hx))) as (g2 & H2 & G1 & G2 & G3 & G4 & G5 & G6 & G7 & L2 & D2); auto.
    { congruence. }
    exists g2. cbn [mfor]. unfold grid_layer at 1, bind. unfold get. rewrite Hd. cbn [lift]. fold (grid_mat d). rewrite H1.
    split; [exact H2|]. do 7 (split; [congruence|]). split; [cbn [appended]; rewrite L2, L1; reflexivity|].
    intros k. rewrite D2, D1. cbn [smem existsb]. fold (smem k t). destruct (String.eqb_spec k l) as [->|NE]; cbn [orb].
    + destruct (smem l t); unfold matrix_of; now rewrite Hd.
    + reflexivity.
Qed.

Lemma grid_mat_at d i v : mget d (fst i) (snd i) = Some v ->
  (if (0 <=? fst i) && (fst i <? mrows d) && (0 <=? snd i) && (snd i <? mcols d)
   then nth_error (map (fun v => Some (grid_value v)) (mcoef d)) (Z.to_nat (fst i + snd i * mrows d)) else None) = Some (Some (grid_value v)).
Proof.
  unfold mget, in_mat. destruct (_ && _); [|discriminate]. intros H. rewrite nth_error_map, H. reflexivity.
Qed.

Lemma copy_any m g0 : (0 < fst (len m))%Q -> (0 < snd (len m))%Q -> (0 < resn m)%Q -> cells_of (len m) (resn m) = size m ->
  (fst (len m) == fmul (inject_Z (fst (size m))) (resn m))%Q -> (snd (len m) == fmul (inject_Z (snd (size m))) (resn m))%Q ->
  (forall l i v, value_at m l i v -> (grid_value v == percent v)%Q) -> reg_ok' m ->
  (forall l, In l (m_layers g0) <-> In l (akeys (m_data g0))) ->
  exists g, toGridMap m g0 = Ret tt g /\
    m_frame g = frame m /\ m_stamp g = stamp m /\ veq (m_len g) (len m) /\ m_resn g = resn m /\ m_pos g = pos m /\
    m_size g = size m /\ m_start g = (0, 0) /\ m_layers g = appended (m_layers g0) (layers m) /\
    (forall l i v, in_range (size m) i -> value_at m l i v -> exists q, grid_at g l i = Some (Some q) /\ (q == percent v)%Q) /\
    (forall l i, In l (m_layers g0) -> ~ has_layer m l -> in_range (size m) i -> grid_at g l i = Some None) /\
    (start m = (0, 0) -> forall i, in_range (size m) i -> veq (grid_centre g i) (centre m i)).
Proof.
  intros L0 L1 RP CO Q0 Q1 GV R K0. unfold cells_of in CO. destruct R as [R [N0 N1]].
  unfold toGridMap, bind, g_setGeometry.
  rewrite (proj2 (Qlt_bool_iff 0 (fst (len m)))), (proj2 (Qlt_bool_iff 0 (snd (len m)))), (proj2 (Qlt_bool_iff 0 (resn m))) by auto.
  cbn [andb negb m_frame m_stamp m_data m_layers m_len m_resn m_pos m_size m_start]. rewrite CO.
  match goal with |- context [mfor _ _ ?x] => set (g1 := x) end.
  assert (A1 : forall k, aget (m_data g1) k = option_map (fun _ => (fst (size m), snd (size m), repeat (@None Q) (Z.to_nat (fst (size m) * snd (size m))))) (aget (m_data g0) k)).
  { intros k. unfold g1. cbn [m_data]. apply (aget_map (fun _ => (fst (size m), snd (size m), repeat (@None Q) (Z.to_nat (fst (size m) * snd (size m)))))). }
  destruct (grid_loop m (layers m) g1) as (g & H & F1 & F2 & F3 & F4 & F5 & F6 & F7 & F8 & D).
  { intros l Hl. apply (r_same _ R), BaseLemmas.aget_In in Hl as [d Hd]. exists d. split; auto. apply (r_mat _ R _ _ Hd). }
  { reflexivity. }
  { intros k. unfold g1. cbn [m_layers m_data]. rewrite (akeys_map (fun _ => (fst (size m), snd (size m), repeat (@None Q) (Z.to_nat (fst (size m) * snd (size m)))))). apply K0. }
  exists g. split; [exact H|]. split; [exact F1|]. split; [exact F2|].
  assert (LV : veq (m_len g) (len m)).
  { rewrite F3. unfold g1. cbn [m_len]. split; cbn [fst snd]; symmetry; auto. }
  split; [exact LV|]. split; [exact F4|]. split; [exact F5|]. split; [exact F6|]. split; [exact F7|]. split; [exact F8|]. split; [|split].
  - intros l i v Hi (d & Hd & Hv). unfold grid_at. rewrite D.
    assert (smem l (layers m) = true) as -> by (apply smem_In, (r_same _ R), BaseLemmas.aget_In; eauto).
    unfold grid_mat, matrix_of. rewrite Hd. rewrite (grid_mat_at d i v Hv). eexists. split; [reflexivity|]. apply (GV l i). exists d. auto.
  - intros l i Hl NH [I0 I1]. unfold grid_at. rewrite D.
    assert (smem l (layers m) = false) as ->.
    { apply smem_false. intros C. apply NH. apply (r_same _ R), BaseLemmas.aget_In in C as [d Hd]. now exists d. }
    rewrite A1. apply K0, BaseLemmas.aget_In in Hl as [d ->]. cbn [option_map].
    match goal with |- (if ?b then _ else _) = _ => replace b with true by (symmetry; lia) end.
    apply nth_error_repeat. nia.
  - intros ST i [I0 I1]. unfold grid_centre, centre, world_index. rewrite F4, F5, F6, F7, ST. destruct LV as [V0 V1].
    unfold g1. cbn [m_start m_size m_pos m_resn fst snd]. unfold centre1. split; cbn [fst snd]; [rewrite V0|rewrite V1]; reflexivity.
Qed.

End Grid.

(** C50: every layer is copied cell by cell onto the percent scale; layers of
    the target that the map does not have stay, as NaN. *)
Theorem C50_copy : forall (E : Env), Exact E -> forall m g0, geo_ok m -> reg_ok' m ->
  (forall l, In l (m_layers g0) <-> In l (akeys (m_data g0))) ->
  exists g, toGridMap m g0 = Ret tt g /\
    m_frame g = frame m /\ m_stamp g = stamp m /\ veq (m_len g) (len m) /\ m_resn g = resn m /\ m_pos g = pos m /\
    m_size g = size m /\ m_start g = (0, 0) /\ m_layers g = appended (m_layers g0) (layers m) /\
    (forall l i v, in_range (size m) i -> value_at m l i v -> exists q, grid_at g l i = Some (Some q) /\ (q == percent v)%Q) /\
    (forall l i, In l (m_layers g0) -> ~ has_layer m l -> in_range (size m) i -> grid_at g l i = Some None) /\
    (start m = (0, 0) -> forall i, in_range (size m) i -> veq (grid_centre g i) (centre m i)).
Proof.
  intros E X m g0 G R. destruct (len_positive m G) as [L0 L1]. destruct (g_len _ G) as [Q0 Q1]. cbn [fst snd] in Q0, Q1.
  apply copy_any; auto; try (rewrite (fmul_eq X); auto). - apply G. - apply (geo_cells E X m G). - intros l i v _. apply (grid_value_exact E X).
Qed.
Print Assumptions C50_copy.

Definition empty_grid : gmap := GMap "" 0 [("z"%string, (1, 1, [Some 3%Q]))] ["z"%string] (1, 1)%Q 1 (0, 0)%Q (1, 1) (0, 0).
Definition grid_of (m : cmap) : gmap := match toGridMap (E := exact_wrap) m empty_grid with Ret _ g => g | _ => empty_grid end.

Example C50_case : m_layers (grid_of sample0) = ["z"; "a"; "b"]%string /\ m_size (grid_of sample0) = (5, 4) /\
  at_ sample0 "b" (0, 2) = Ok 102 /\ match grid_at (grid_of sample0) "b" (0, 2) with Some (Some q) => (q == 40)%Q | _ => False end /\
  grid_at (grid_of sample0) "z" (4, 3) = Some None.
Proof. conj_vm. Qed.

(** On a moved map the cells are copied to the same buffer index, which is
    another place. *)
Theorem C50_moved_refuted : exists m l i j v q, geo_ok m /\ reg_ok' m /\ value_at m l i v /\
  veq (grid_centre (grid_of m) j) (centre m i) /\ grid_at (grid_of m) l j = Some (Some q) /\ ~ (q == percent v)%Q.
Proof.
  exists sample, "b"%string, (3, 2), (0, 0), 114, (percent 100). split; [exact sample_geo|]. split; [exact sample_reg|].
  split; [apply at_value; vm_compute; reflexivity|]. split; [split; vm_compute; reflexivity|].
  split; [vm_compute; reflexivity|]. vm_compute. discriminate.
Qed.
Print Assumptions C50_moved_refuted.
