(** CostMap::move. *)
From Coq Require Import ZArith QArith Qround Qabs Qreduction Qfield String List Bool Lia Lqa.
From Coq Require Import ZifyBool.
From Verif Require Import Base Mat GridMapMath GridIter CostMap History BaseLemmas Spec GeoLemmas CoreProofs CoreProofs2.
Import ListNotations.
Open Scope Z_scope.

(** Clearing a block in a list of layers. *)
Lemma fill_list i0 j0 h w ls : forall m, reg_ok' m -> (forall l, In l ls -> has_layer m l) ->
  0 <= i0 -> 0 <= h -> i0 + h <= fst (size m) -> 0 <= j0 -> 0 <= w -> j0 + w <= snd (size m) ->
  exists m', mfor ls (clear_block i0 j0 h w) m = Ret tt m' /\ reg_ok' m' /\
    layers m' = layers m /\ same_meta m m' /\
    (forall l, aget (data m) l = None -> aget (data m') l = None) /\
    (forall l d, aget (data m) l = Some d -> exists d', aget (data m') l = Some d' /\
       forall i j, 0 <= i < fst (size m) -> 0 <= j < snd (size m) ->
         mget d' i j = if smem l ls && in_block i0 j0 h w i j then Some NO_INFORMATION else mget d i j).
Proof.
  induction ls as [|l ls IH]; intros m R H Hi Hh Hih Hj Hw Hjw; simpl.
  - exists m. split; [reflexivity|]. split; [auto|]. split; [auto|]. split; [apply same_meta_refl|].
    split; auto. intros l d Hd. exists d. split; auto.
  - destruct (H l (or_introl eq_refl)) as [d Hd].
    pose proof (pres_clear_block i0 j0 h w l m R) as R1. unfold clear_block in *. rewrite Hd in *.
    destruct (r_mat _ (proj1 R) _ _ Hd) as (W & D1 & D2).
    assert (exists d1, mfill d i0 j0 h w NO_INFORMATION = Some d1) as [d1 Hd1].
    { unfold mfill. rewrite (proj2 (block_ok_iff d i0 j0 h w)) by lia. eauto. }
    rewrite Hd1 in *. cbn [post] in R1.
    assert (Hm : amem (data m) l = true) by (unfold amem; now rewrite Hd).
    destruct (IH (set_data m (aset (data m) l d1))) as (m2 & F & R2 & L2 & M2 & N2 & G2); auto.
    { intros l' Hl'. destruct (H l' (or_intror Hl')) as [d' Hd']. unfold has_layer. simpl.
      rewrite aget_aset. destruct (String.eqb l' l); [rewrite Hm|]; eauto. }
    exists m2. split; auto. split; auto. split; auto. split; auto. split.
    + intros l' Hl'. apply N2. simpl. rewrite aget_aset. destruct (String.eqb_spec l' l); auto. subst; congruence.
    + intros l' d' Hd'. apply mfill_spec in Hd1; auto. destruct Hd1 as (W1 & E1 & E2 & G1).
      destruct (String.eqb_spec l' l).
      * subst l'. rewrite Hd in Hd'. injection Hd' as <-.
        destruct (G2 l d1) as (d2 & Hd2 & V2). { simpl. now rewrite aget_aset, String.eqb_refl, Hm. }
        exists d2. split; auto. intros i j Ii Ij. simpl in V2. rewrite V2 by auto.
        rewrite G1 by lia. unfold smem. simpl. 
        destruct (existsb (String.eqb l) ls), (in_block i0 j0 h w i j); auto.
      * destruct (G2 l' d') as (d2 & Hd2 & V2).
        { simpl. rewrite aget_aset. destruct (String.eqb_spec l' l); congruence. }
        exists d2. split; auto.
Qed.

(** ** The circular buffer along one axis *)

(** After a shift by [k] cells, buffer line [i] no longer shows the same part
    of the world. *)
Definition dropped (n s k i : Z) : bool :=
  let u := (i - s) mod n in (u - k <? 0) || (n <=? u - k).

Lemma mod_diff i s n : 0 <= i < n -> 0 <= s < n ->
  (i - s) mod n = if s <=? i then i - s else i - s + n.
Proof.
  intros Hi Hs. destruct (Z.leb_spec s i).
  - apply Z.mod_small; lia.
  - symmetry. apply Z.mod_unique with (q := -1); lia.
Qed.

Lemma mod_sum a n : - n < a < 2 * n -> 0 < n ->
  a mod n = if a <? 0 then a + n else if a <? n then a else a - n.
Proof.
  intros Ha Hn. destruct (Z.ltb_spec a 0).
  - symmetry. apply Z.mod_unique with (q := -1); lia.
  - destruct (Z.ltb_spec a n).
    + apply Z.mod_small; lia.
    + symmetry. apply Z.mod_unique with (q := 1); lia.
Qed.

(** Case split on every integer comparison under an [if]. *)
Ltac bsplit := repeat match goal with
  | |- context [if ?a <? ?b then _ else _] => destruct (Z.ltb_spec a b)
  | |- context [if ?a <=? ?b then _ else _] => destruct (Z.leb_spec a b)
  | H : context [if ?a <? ?b then _ else _] |- _ => destruct (Z.ltb_spec a b)
  | H : context [if ?a <=? ?b then _ else _] |- _ => destruct (Z.leb_spec a b)
  end.

(** i belongs to a list of (first, count) line ranges. *)
Definition in_lines (rs : list (Z * Z)) (i : Z) : bool :=
  existsb (fun r => (fst r <=? i) && (i <? fst r + snd r)) rs.

Section Move.
Context {E : Env}.

(** The lines cleared along one axis, as computed by lines 337-383. *)
Definition axis_lines (n s k : Z) : list (Z * Z) :=
  let sign := if 0 <? k then 1 else -1 in
  let startIndex := s - (if sign <? 0 then 1 else 0) in
  let endIndex := startIndex - sign + k in
  let nCells := Z.abs k in
  let index := bound1 (if 0 <? sign then startIndex else endIndex) n in
  if index + nCells <=? n then [(index, nCells)]
  else [(index, n - index); (0, nCells - (n - index))].

(** The bounding done by [move] along one axis agrees with wrapping. *)
Definition bound_wraps (n s k : Z) : Prop := n <= Z.abs k \/ bound1 (s + k) n = (s + k) mod n.

Lemma bound1_in_range i n : 0 <= i < n -> bound1 i n = i.
Proof.
  intros H. unfold bound1. destruct bpol.
  - destruct (Z.ltb_spec i 0), (Z.leb_spec n i); lia.
  - rewrite wrap1_mod, Z.mod_small by lia. reflexivity.
Qed.

Lemma bound1_range i n : 0 < n -> 0 <= bound1 i n < n.
Proof.
  intros H. unfold bound1. destruct bpol.
  - destruct (Z.ltb_spec i 0), (Z.leb_spec n i); lia.
  - rewrite wrap1_mod by lia. apply Z.mod_pos_bound; lia.
Qed.

Lemma bound_wraps_BWrap n s k : bpol = BWrap -> 0 < n -> bound_wraps n s k.
Proof. intros P H. right. unfold bound1. rewrite P. now apply wrap1_mod. Qed.

Lemma axis_lines_spec n s k : 0 <= s < n -> k <> 0 -> Z.abs k < n -> bound_wraps n s k ->
  Forall (fun r => 0 <= fst r /\ 0 <= snd r /\ fst r + snd r <= n) (axis_lines n s k) /\
  (forall i, 0 <= i < n -> in_lines (axis_lines n s k) i = dropped n s k i) /\
  (exists a, axis_lines n s k = [a] \/ exists b, axis_lines n s k = [a; b]).
Proof.
  intros Hs Hk Hn Hb. unfold axis_lines.
  assert (B : bound1 (if 0 <? (if 0 <? k then 1 else -1) then s - (if (if 0 <? k then 1 else -1) <? 0 then 1 else 0)
            else s - (if (if 0 <? k then 1 else -1) <? 0 then 1 else 0) - (if 0 <? k then 1 else -1) + k) n
            = if 0 <? k then s else (s + k) mod n).
  { destruct (Z.ltb_spec 0 k).
    - replace (0 <? 1) with true by reflexivity. replace (1 <? 0) with false by reflexivity.
      rewrite bound1_in_range; lia.
    - replace (0 <? -1) with false by reflexivity. replace (-1 <? 0) with true by reflexivity.
      destruct Hb as [?|Hb]; [lia|]. rewrite <- Hb. f_equal. lia. }
  cbv zeta. rewrite B. clear B. unfold dropped.
  destruct (Z.ltb_spec 0 k) as [Kp|Kn].
  - destruct (Z.leb_spec (s + Z.abs k) n); split; try split.
    + repeat constructor; cbn [fst snd]; bsplit; lia.
    + intros i Hi. rewrite mod_diff by auto. unfold in_lines; cbn [existsb fst snd orb]. bsplit; lia.
    + eauto.
    + repeat constructor; cbn [fst snd]; bsplit; lia.
    + intros i Hi. rewrite mod_diff by auto. unfold in_lines; cbn [existsb fst snd orb]. bsplit; lia.
    + eauto.
  - rewrite (mod_sum (s + k)) by lia.
    destruct (Z.leb_spec ((if s + k <? 0 then s + k + n else if s + k <? n then s + k else s + k - n) + Z.abs k) n);
      split; try split.
    + repeat constructor; cbn [fst snd]; bsplit; lia.
    + intros i Hi. rewrite mod_diff by auto. unfold in_lines; cbn [existsb fst snd orb]. bsplit; lia.
    + eauto.
    + repeat constructor; cbn [fst snd]; bsplit; lia.
    + intros i Hi. rewrite mod_diff by auto. unfold in_lines; cbn [existsb fst snd orb]. bsplit; lia.
    + eauto.
Qed.

(** Does a region contain a buffer index? *)
Definition in_region (r : region) (i : idx) : bool :=
  in_block (fst (rstart r)) (snd (rstart r)) (fst (rsize r)) (snd (rsize r)) (fst i) (snd i).

Lemma to_clear_exist m : reg_ok m -> basics_exist m -> forall l, In l (layers_to_clear m) -> has_layer m l.
Proof.
  intros R B l. unfold layers_to_clear. destruct (basic m) as [|b bs] eqn:K.
  - intros H. apply (r_same _ R) in H. now apply aget_In.
  - rewrite <- K. apply B.
Qed.

(** Effect of the clearing along one axis. *)
Record axis_effect (rows : bool) (n s k : Z) (m m' : cmap) (rs : list region) : Prop :=
  { ae_reg : reg_ok' m';
    ae_layers : layers m' = layers m;
    ae_meta : same_meta m m';
    ae_none : forall l, aget (data m) l = None -> aget (data m') l = None;
    ae_cells : forall l d, aget (data m) l = Some d -> exists d', aget (data m') l = Some d' /\
       forall i j, 0 <= i < fst (size m) -> 0 <= j < snd (size m) ->
         mget d' i j = if dropped n s k (if rows then i else j) && (smem l (layers_to_clear m) || (n <=? Z.abs k))
                       then Some NO_INFORMATION else mget d i j;
    ae_regions : forall i, in_range (size m) i ->
       existsb (fun r => in_region r i) rs = dropped n s k (if rows then fst i else snd i) }.

Lemma dropped_all n s k i : 0 < n -> n <= Z.abs k -> dropped n s k i = true.
Proof.
  intros Hn Hk. unfold dropped. pose proof (Z.mod_pos_bound (i - s) n Hn). lia.
Qed.

Lemma dropped_zero n s i : 0 < n -> dropped n s 0 i = false.
Proof. intros Hn. unfold dropped. pose proof (Z.mod_pos_bound (i - s) n Hn). lia. Qed.

Lemma basics_exist_meta m m' : same_meta m m' -> 
  (forall l d, aget (data m) l = Some d -> exists d', aget (data m') l = Some d') ->
  basics_exist m -> basics_exist m'.
Proof.
  intros (_ & _ & B & _) H K l Hl. rewrite <- B in Hl. destruct (K l Hl) as [d Hd]. 
  destruct (H l d Hd) as [d' Hd']. now exists d'.
Qed.

Lemma clr_lines (rows : bool) a c m : reg_ok' m -> basics_exist m ->
  0 <= a -> 0 <= c -> a + c <= (if rows then fst (size m) else snd (size m)) ->
  exists m', (if rows then clearRows else clearCols) a c m = Ret tt m' /\ reg_ok' m' /\
    layers m' = layers m /\ same_meta m m' /\
    (forall l, aget (data m) l = None -> aget (data m') l = None) /\
    (forall l d, aget (data m) l = Some d -> exists d', aget (data m') l = Some d' /\
       forall i j, 0 <= i < fst (size m) -> 0 <= j < snd (size m) ->
         mget d' i j = if smem l (layers_to_clear m) && in_lines [(a, c)] (if rows then i else j)
                       then Some NO_INFORMATION else mget d i j).
Proof.
  intros R B Ha Hc Hac. pose proof (proj2 R) as [Z1 Z2].
  destruct rows.
  - destruct (fill_list a 0 c (snd (size m)) (layers_to_clear m) m) as (m' & F & R' & L & M & N & V); try lia; auto.
    { now apply to_clear_exist; [apply R|]. }
    exists m'. unfold clearRows. split; auto. split; auto. split; auto. split; auto. split; auto.
    intros l d Hd. destruct (V l d Hd) as (d' & Hd' & Vd). exists d'. split; auto.
    intros i j Hi Hj. rewrite Vd by auto.
    replace (in_block a 0 c (snd (size m)) i j) with (in_lines [(a, c)] i); [reflexivity|].
    unfold in_lines, in_block; cbn [existsb fst snd orb]. lia.
  - destruct (fill_list 0 a (fst (size m)) c (layers_to_clear m) m) as (m' & F & R' & L & M & N & V); try lia; auto.
    { now apply to_clear_exist; [apply R|]. }
    exists m'. unfold clearCols. split; auto. split; auto. split; auto. split; auto. split; auto.
    intros l d Hd. destruct (V l d Hd) as (d' & Hd' & Vd). exists d'. split; auto.
    intros i j Hi Hj. rewrite Vd by auto.
    replace (in_block 0 a (fst (size m)) c i j) with (in_lines [(a, c)] j); [reflexivity|].
    unfold in_lines, in_block; cbn [existsb fst snd orb]. lia.
Qed.

Lemma same_meta_trans a b c : same_meta a b -> same_meta b c -> same_meta a c.
Proof. unfold same_meta. intuition congruence. Qed.

Lemma layers_to_clear_meta m m' : layers m' = layers m -> same_meta m m' -> layers_to_clear m' = layers_to_clear m.
Proof. intros H (_ & _ & B & _). unfold layers_to_clear. rewrite <- B, H. reflexivity. Qed.

Lemma move_axis_ok (rows : bool) k m :
  let n := if rows then fst (size m) else snd (size m) in
  let s := if rows then fst (start m) else snd (start m) in
  reg_ok' m -> basics_exist m -> 0 <= s < n -> bound_wraps n s k ->
  exists rs m', move_axis rows k m = Ret rs m' /\ axis_effect rows n s k m m' rs.
Proof.
  intros n s R B Hs Hb. unfold move_axis. fold n. fold s.
  destruct (Z.eqb_spec k 0) as [->|Hk].
  { exists [], m. split; auto. constructor; auto using same_meta_refl.
    - intros l d Hd. exists d. split; auto. intros. rewrite dropped_zero by lia. reflexivity.
    - intros i Hi. simpl. rewrite dropped_zero by lia. reflexivity. }
  destruct (Z.leb_spec n (Z.abs k)) as [Hbig|Hsmall].
  { unfold bind. destruct (clearAll_ok m (proj1 R)) as (m' & Hc & V & Ex & L & M). rewrite Hc.
    exists [Region (0, 0) (size m) QUndefined], m'. split; [reflexivity|].
    pose proof (pres_clearAll m R) as R'. rewrite Hc in R'; simpl in R'.
    constructor; auto.
    - intros l Hl. specialize (Ex l). unfold exists_layer, amem in Ex. rewrite Hl in Ex.
      destruct (aget (data m') l); [discriminate|auto].
    - intros l d Hd. assert (has_layer m l) as HL by (now exists d).
      assert (exists d', aget (data m') l = Some d') as [d' Hd'].
      { specialize (Ex l). unfold exists_layer, amem in Ex. rewrite Hd in Ex.
        destruct (aget (data m') l); [eauto|discriminate]. }
      exists d'. split; auto. intros i j Hi Hj. rewrite dropped_all by lia.
      replace (n <=? Z.abs k) with true by lia. rewrite orb_true_r. simpl.
      destruct (V l (i, j) HL) as (d2 & Hd2 & Hv); [split; auto|]. simpl in Hv. rewrite Hd2 in Hd'. injection Hd' as <-. exact Hv.
    - intros i [Hi Hj]. rewrite dropped_all by lia. cbn [existsb orb]. unfold in_region; cbn [rstart rsize fst snd].
      unfold in_block. lia. }
  pose proof (axis_lines_spec n s k Hs Hk Hsmall Hb) as (FA & IL & SH).
  assert (Mtoken : (let sign := if 0 <? k then 1 else -1 in
    let startIndex := s - (if sign <? 0 then 1 else 0) in
    let endIndex := startIndex - sign + k in
    let nCells := Z.abs k in
    let index := bound1 (if 0 <? sign then startIndex else endIndex) n in
    if index + nCells <=? n then
      bind ((if rows then clearRows else clearCols) index nCells) (fun _ => ret [(if rows then row_region m else col_region m) index nCells]) m
    else
      let firstNCells := n - index in
      let secondNCells := nCells - firstNCells in
      bind ((if rows then clearRows else clearCols) index firstNCells) (fun _ => bind ((if rows then clearRows else clearCols) 0 secondNCells) (fun _ =>
       ret [(if rows then row_region m else col_region m) index firstNCells; (if rows then row_region m else col_region m) 0 secondNCells])) m)
    = match axis_lines n s k with
      | [a] => bind ((if rows then clearRows else clearCols) (fst a) (snd a)) (fun _ => ret [(if rows then row_region m else col_region m) (fst a) (snd a)]) m
      | [a; b] => bind ((if rows then clearRows else clearCols) (fst a) (snd a)) (fun _ => bind ((if rows then clearRows else clearCols) (fst b) (snd b)) (fun _ =>
          ret [(if rows then row_region m else col_region m) (fst a) (snd a); (if rows then row_region m else col_region m) (fst b) (snd b)])) m
      | _ => Flt OutOfBounds
      end).
  { unfold axis_lines. cbv zeta. destruct (_ + Z.abs k <=? n); reflexivity. }
  cbv zeta in Mtoken. cbv zeta. rewrite Mtoken. clear Mtoken.
  assert (RC : forall a c i, in_range (size m) i -> in_region ((if rows then row_region m else col_region m) a c) i
               = in_lines [(a, c)] (if rows then fst i else snd i)).
  { intros a c i [Hi Hj]. unfold in_region, in_lines, in_block. destruct rows; cbn [row_region col_region rstart rsize existsb fst snd orb]; lia. }
  destruct SH as [[a1 a2] [SH|[[b1 b2] SH]]]; rewrite SH in *.
  - inversion FA as [|? ? (P1 & P2 & P3) _]; subst. simpl in P1, P2, P3. cbn [fst snd].
    destruct (clr_lines rows a1 a2 m) as (m1 & C1 & R1 & L1 & M1 & N1 & V1); auto.
    unfold bind. rewrite C1. eexists _, m1. split; [reflexivity|]. constructor; auto.
    + intros l d Hd. destruct (V1 l d Hd) as (d' & Hd' & V'). exists d'. split; auto.
      intros i j Hi Hj. rewrite V' by auto. rewrite IL by (destruct rows; auto).
      replace (n <=? Z.abs k) with false by lia. rewrite orb_false_r, andb_comm. reflexivity.
    + intros i Hi. cbn [existsb]. rewrite RC by auto. rewrite orb_false_r. apply IL. destruct Hi, rows; auto.
  - inversion FA as [|? ? (P1 & P2 & P3) FA2]; subst. inversion FA2 as [|? ? (Q1 & Q2 & Q3) _]; subst.
    simpl in P1, P2, P3, Q1, Q2, Q3. cbn [fst snd].
    destruct (clr_lines rows a1 a2 m) as (m1 & C1 & R1 & L1 & M1 & N1 & V1); auto.
    assert (S1 : size m1 = size m) by (symmetry; apply M1).
    destruct (clr_lines rows b1 b2 m1) as (m2 & C2 & R2 & L2 & M2 & N2 & V2); auto.
    { eapply basics_exist_meta; eauto. intros l d Hd. destruct (V1 l d Hd) as (d' & Hd' & _). eauto. }
    { rewrite S1. auto. }
    unfold bind. rewrite C1, C2. eexists _, m2. split; [reflexivity|]. constructor; auto.
    + congruence.
    + eapply same_meta_trans; eauto.
    + intros l d Hd. destruct (V1 l d Hd) as (d1 & Hd1 & V1'). destruct (V2 l d1 Hd1) as (d2 & Hd2 & V2').
      exists d2. split; auto. intros i j Hi Hj. rewrite V2' by (rewrite S1; auto). rewrite V1' by auto.
      rewrite (layers_to_clear_meta m m1) by auto.
      rewrite <- IL by (destruct rows; auto). replace (n <=? Z.abs k) with false by lia. rewrite orb_false_r.
      unfold in_lines; cbn [existsb fst snd]. set (x := if rows then i else j).
      destruct (smem l (layers_to_clear m)), ((a1 <=? x) && (x <? a1 + a2)), ((b1 <=? x) && (x <? b1 + b2)); reflexivity.
    + intros i Hi. cbn [existsb]. rewrite !RC by auto. rewrite orb_false_r.
      rewrite <- (IL (if rows then fst i else snd i)) by (destruct Hi, rows; auto).
      unfold in_lines; cbn [existsb fst snd]. now rewrite !orb_false_r.
Qed.


(** ** Shifts in exact arithmetic *)

Lemma move_state p m :
  let k0 := index_shift1 (fsub (fst p) (fst (pos m))) (resn m) in
  let k1 := index_shift1 (fsub (snd p) (snd (pos m))) (resn m) in
  reg_ok' m -> basics_exist m -> in_range (size m) (start m) ->
  bound_wraps (fst (size m)) (fst (start m)) k0 -> bound_wraps (snd (size m)) (snd (start m)) k1 ->
  exists rs m', move p m = Ret (negb ((k0 =? 0) && (k1 =? 0)), rs) m' /\ reg_ok' m' /\
    layers m' = layers m /\ frame m' = frame m /\ stamp m' = stamp m /\ basic m' = basic m /\
    len m' = len m /\ resn m' = resn m /\ size m' = size m /\
    start m' = (bound1 (fst (start m) + k0) (fst (size m)), bound1 (snd (start m) + k1) (snd (size m))) /\
    pos m' = (fadd (fst (pos m)) (position_shift1 k0 (resn m)), fadd (snd (pos m)) (position_shift1 k1 (resn m))) /\
    (forall l, aget (data m) l = None -> aget (data m') l = None) /\
    (forall l d, aget (data m) l = Some d -> exists d', aget (data m') l = Some d' /\
       forall i, in_range (size m) i ->
         mget d' (fst i) (snd i) =
         if (dropped (fst (size m)) (fst (start m)) k0 (fst i) &&
               (smem l (layers_to_clear m) || (fst (size m) <=? Z.abs k0)))
            || (dropped (snd (size m)) (snd (start m)) k1 (snd i) &&
               (smem l (layers_to_clear m) || (snd (size m) <=? Z.abs k1)))
         then Some NO_INFORMATION else mget d (fst i) (snd i)) /\
    (forall i, in_range (size m) i ->
       existsb (fun r => in_region r i) rs =
       dropped (fst (size m)) (fst (start m)) k0 (fst i) || dropped (snd (size m)) (snd (start m)) k1 (snd i)).
Proof.
  intros k0 k1 R B [S0 S1] W0 W1.
  destruct (move_axis_ok true k0 m) as (r0 & m0 & H0 & A0); auto.
  pose proof (ae_meta _ _ _ _ _ _ _ A0) as (F1 & F2 & F3 & F4 & F5 & F6 & F7 & F8).
  destruct (move_axis_ok false k1 m0) as (r1 & m1 & H1 & A1).
  { apply A0. }
  { eapply basics_exist_meta; [apply A0| |exact B]. intros l d Hd.
    destruct (ae_cells _ _ _ _ _ _ _ A0 l d Hd) as (d' & Hd' & _). eauto. }
  { rewrite <- F7, <- F8. exact S1. }
  { rewrite <- F7, <- F8. exact W1. }
  pose proof (ae_meta _ _ _ _ _ _ _ A1) as (G1 & G2 & G3 & G4 & G5 & G6 & G7 & G8).
  unfold move. fold k0 k1. unfold bind at 1. rewrite H0. unfold bind at 1. rewrite H1.
  assert (Z : match bpol with BWrap => (fst (size m1) =? 0) || (snd (size m1) =? 0) | BClamp => false end = false).
  { destruct bpol; auto. rewrite <- G7, <- F7. lia. }
  rewrite Z. eexists (r0 ++ r1), _. split; [reflexivity|].
  split. { apply (reg_meta m1); auto. apply A1. }
  cbn [layers frame stamp basic len resn size start pos set_pos set_start data].
  split; [rewrite (ae_layers _ _ _ _ _ _ _ A1); apply A0|].
  split; [congruence|]. split; [congruence|]. split; [congruence|]. split; [congruence|].
  split; [congruence|]. split; [congruence|].
  split; [rewrite <- G8, <- G7, <- F8, <- F7; reflexivity|].
  split; [rewrite <- G6, <- F6; reflexivity|].
  split; [intros l Hl; apply (ae_none _ _ _ _ _ _ _ A1); now apply (ae_none _ _ _ _ _ _ _ A0)|].
  split.
  - intros l d Hd. destruct (ae_cells _ _ _ _ _ _ _ A0 l d Hd) as (d0 & Hd0 & V0).
    destruct (ae_cells _ _ _ _ _ _ _ A1 l d0 Hd0) as (d1 & Hd1 & V1).
    exists d1. split; auto. intros i [Hi Hj]. rewrite <- F7, <- F8 in V1.
    rewrite V1, V0 by auto. rewrite (layers_to_clear_meta m m0) by (apply A0).
    destruct (dropped _ _ k0 _ && _), (dropped _ _ k1 _ && _); reflexivity.
  - intros i Hi. rewrite existsb_app.
    rewrite (ae_regions _ _ _ _ _ _ _ A0 i Hi).
    pose proof (ae_regions _ _ _ _ _ _ _ A1 i) as K. rewrite <- F7, <- F8 in K. rewrite (K Hi). reflexivity.
Qed.

(** Whatever boundIndexToRange does, a move succeeds and only clears cells. *)
Definition wiped (m m' : cmap) : Prop :=
  reg_ok' m' /\ layers m' = layers m /\ same_meta m m' /\ (forall l, has_layer m' l <-> has_layer m l) /\
  forall l i v, value_at m' l i v -> v = NO_INFORMATION \/ value_at m l i v.

Lemma wiped_refl m : reg_ok' m -> wiped m m.
Proof. intros R. split; auto. split; auto. split; [apply same_meta_refl|]. split; [reflexivity|auto]. Qed.

Lemma wiped_trans a b c : wiped a b -> wiped b c -> wiped a c.
Proof.
  intros (R1 & L1 & M1 & H1 & V1) (R2 & L2 & M2 & H2 & V2). split; auto. split; [congruence|].
  split; [eapply same_meta_trans; eauto|]. split; [intros l; now rewrite H2|].
  intros l i v K. destruct (V2 l i v K) as [->|K1]; auto.
Qed.

Lemma wiped_basics m m' : wiped m m' -> basics_exist m -> basics_exist m'.
Proof. intros (_ & _ & (_ & _ & B & _) & H & _) K l Hl. apply H, K. now rewrite B. Qed.

Lemma reg_value_range m l i v : reg_ok m -> value_at m l i v -> in_range (size m) i.
Proof.
  intros R (d & Hd & Hv). destruct (r_mat _ R l d Hd) as (_ & D0 & D1). unfold mget in Hv.
  destruct (in_mat d (fst i) (snd i)) eqn:B; [|discriminate]. unfold in_mat in B. unfold in_range. lia.
Qed.

Lemma clr_wiped (rows : bool) a c m : reg_ok' m -> basics_exist m ->
  0 <= a -> 0 <= c -> a + c <= (if rows then fst (size m) else snd (size m)) ->
  exists m', (if rows then clearRows else clearCols) a c m = Ret tt m' /\ wiped m m'.
Proof.
  intros R B Ha Hc Hac. destruct (clr_lines rows a c m R B Ha Hc Hac) as (m' & H & R' & L & M & N & V).
  exists m'. split; auto. split; auto. split; auto. split; auto. split.
  - intros l. split; intros [d Hd].
    + destruct (aget (data m) l) as [d0|] eqn:K; [now exists d0|]. rewrite (N l K) in Hd. discriminate.
    + destruct (V l d Hd) as (d' & Hd' & _). now exists d'.
  - intros l i v K. assert (Hi : in_range (size m) i).
    { replace (size m) with (size m') by (symmetry; apply M). now apply (reg_value_range m' l i v); [apply R'|]. }
    destruct K as (d' & Hd' & Hv). destruct (aget (data m) l) as [d|] eqn:Q; [|rewrite (N l Q) in Hd'; discriminate].
    destruct (V l d Q) as (d2 & Hd2 & V2). rewrite Hd2 in Hd'. injection Hd' as <-. destruct Hi as [H0 H1].
    rewrite V2 in Hv by auto. destruct (_ && _); [left; congruence|right; now exists d].
Qed.

Lemma move_axis_any (rows : bool) k m :
  let n := if rows then fst (size m) else snd (size m) in
  reg_ok' m -> basics_exist m -> 0 < n -> exists rs m', move_axis rows k m = Ret rs m' /\ wiped m m'.
Proof.
  intros n R B Hn. unfold move_axis. fold n.
  set (s := if rows then fst (start m) else snd (start m)).
  destruct (k =? 0). { exists [], m. split; auto using wiped_refl. }
  destruct (Z.leb_spec n (Z.abs k)) as [Hbig|Hsmall].
  { unfold bind. destruct (clearAll_ok m (proj1 R)) as (m' & Hc & V & Ex & L & M). rewrite Hc.
    eexists _, m'. split; [reflexivity|].
    pose proof (pres_clearAll m R) as R'. rewrite Hc in R'; simpl in R'.
    split; auto. split; auto. split; auto.
    assert (HL : forall l, has_layer m' l <-> has_layer m l).
    { intros l. specialize (Ex l). unfold exists_layer, amem in Ex. unfold has_layer. destruct (aget (data m') l), (aget (data m) l); split; intros [d K]; try discriminate; eauto. }
    split; auto. intros l i v K. left.
    assert (Hi : in_range (size m) i).
    { replace (size m) with (size m') by (symmetry; apply M). now apply (reg_value_range m' l i v); [apply R'|]. }
    apply (value_fun m' l i); auto. apply V; auto. apply HL. destruct K as (d & Hd & _). now exists d. }
  set (index := bound1 _ n). assert (I : 0 <= index < n) by (now apply bound1_range).
  clearbody index s. destruct (Z.leb_spec (index + Z.abs k) n).
  - destruct (clr_wiped rows index (Z.abs k) m) as (m1 & C1 & W1); auto; try lia.
    unfold bind. rewrite C1. eexists _, m1. split; [reflexivity|auto].
  - destruct (clr_wiped rows index (n - index) m) as (m1 & C1 & W1); auto; try lia.
    destruct (clr_wiped rows 0 (Z.abs k - (n - index)) m1) as (m2 & C2 & W2); try lia; [apply W1|eapply wiped_basics; eauto| |].
    { destruct W1 as (_ & _ & M & _). assert (size m1 = size m) as -> by (symmetry; apply M). fold n. lia. }
    unfold bind. rewrite C1, C2. eexists _, m2. split; [reflexivity|]. eapply wiped_trans; eauto.
Qed.

Lemma move_any p m :
  let k0 := index_shift1 (fsub (fst p) (fst (pos m))) (resn m) in
  let k1 := index_shift1 (fsub (snd p) (snd (pos m))) (resn m) in
  reg_ok' m -> basics_exist m -> in_range (size m) (start m) ->
  exists rs m', move p m = Ret (negb ((k0 =? 0) && (k1 =? 0)), rs) m' /\ reg_ok' m' /\
    layers m' = layers m /\ frame m' = frame m /\ stamp m' = stamp m /\ basic m' = basic m /\
    len m' = len m /\ resn m' = resn m /\ size m' = size m /\ in_range (size m') (start m') /\
    pos m' = (fadd (fst (pos m)) (position_shift1 k0 (resn m)), fadd (snd (pos m)) (position_shift1 k1 (resn m))) /\
    (forall l, has_layer m' l <-> has_layer m l) /\
    (forall l i v, value_at m' l i v -> v = NO_INFORMATION \/ value_at m l i v).
Proof.
  intros k0 k1 R B [S0 S1].
  destruct (move_axis_any true k0 m) as (r0 & m0 & H0 & W0); auto; [lia|].
  pose proof W0 as (R0 & L0 & (F1 & F2 & F3 & F4 & F5 & F6 & F7 & F8) & X0 & V0).
  destruct (move_axis_any false k1 m0) as (r1 & m1 & H1 & W1); auto; [eapply wiped_basics; eauto|rewrite <- F7; lia|].
  pose proof W1 as (R1 & L1 & (G1 & G2 & G3 & G4 & G5 & G6 & G7 & G8) & X1 & V1).
  unfold move. fold k0 k1. unfold bind at 1. rewrite H0. unfold bind at 1. rewrite H1.
  assert (Z : match bpol with BWrap => (fst (size m1) =? 0) || (snd (size m1) =? 0) | BClamp => false end = false).
  { destruct bpol; auto. rewrite <- G7, <- F7. lia. }
  rewrite Z. eexists (r0 ++ r1), _. split; [reflexivity|].
  split. { apply (reg_meta m1); auto. }
  cbn [layers frame stamp basic len resn size start pos set_pos set_start data].
  split; [congruence|]. split; [congruence|]. split; [congruence|]. split; [congruence|]. split; [congruence|].
  split; [congruence|]. split; [congruence|].
  split. { rewrite <- G7, <- F7. split; apply bound1_range; lia. }
  split; [rewrite <- G6, <- F6; reflexivity|].
  split. { intros l. rewrite <- X0, <- X1. reflexivity. }
  intros l i v K. destruct (V1 l i v K) as [->|K1]; auto.
Qed.

End Move.

Section MoveExact.
Context {E : Env} (X : Exact E).

Lemma index_shift1_near d r : (0 < r)%Q ->
  (Qabs (d + inject_Z (index_shift1 d r) * r) <= r / 2)%Q.
Proof.
  intros Hr. unfold index_shift1.
  set (x := fdiv d r). assert (Hx : (x == d / r)%Q) by apply (fdiv_eq X).
  set (k := Qtrunc _).
  assert (Hk : (Qabs (x + inject_Z k) <= 1#2)%Q).
  { subst k. apply Qabs_Qle_condition. destruct (Qlt_bool 0 x) eqn:P.
    - apply Qlt_bool_iff in P. rewrite Qtrunc_opp, (fadd_eq X).
      rewrite Qtrunc_nonneg by lra. rewrite inject_Z_opp.
      pose proof (Qfloor_le (x + (1#2))). pose proof (Qlt_floor (x + (1#2))) as F. injz. split; lra.
    - apply Qlt_bool_false in P.
      assert ((- fadd x (- (1#2)) == - x + (1#2))%Q) as -> by (rewrite (fadd_eq X); ring).
      rewrite Qtrunc_nonneg by lra.
      pose proof (Qfloor_le (- x + (1#2))). pose proof (Qlt_floor (- x + (1#2))) as F. injz. split; lra. }
  apply Qabs_Qle_condition in Hk. destruct Hk as [K1 K2]. rewrite Hx in K1, K2.
  assert ((d / r + inject_Z k) * r == d + inject_Z k * r)%Q as EQ by (field; lra).
  assert (- (1#2) * r <= (d / r + inject_Z k) * r)%Q as B1 by (apply Qmult_le_compat_r; lra).
  assert ((d / r + inject_Z k) * r <= (1#2) * r)%Q as B2 by (apply Qmult_le_compat_r; lra).
  rewrite EQ in B1, B2. apply Qabs_Qle_condition.
  assert (r / 2 == (1#2) * r)%Q by field. split; lra.
Qed.

Lemma index_shift1_zero d r : (0 < r)%Q -> (d == 0)%Q -> index_shift1 d r = 0.
Proof.
  intros Hr Hd. unfold index_shift1.
  assert (fdiv d r == 0)%Q as Hx by (rewrite (fdiv_eq X), Hd; field; lra).
  assert (Qlt_bool 0 (fdiv d r) = false) as ->.
  { destruct (Qlt_bool 0 _) eqn:K; auto. apply Qlt_bool_iff in K. lra. }
  assert ((- fadd (fdiv d r) (- (1#2)) == 1#2)%Q) as -> by (rewrite (fadd_eq X), Hx; ring). reflexivity.
Qed.

(** One axis: a line that stays shows the same piece of world. *)
Lemma axis_kept L c c' r n s s' k i x : (0 < r)%Q -> (L == inject_Z n * r)%Q -> 0 < n ->
  (c' == c - inject_Z k * r)%Q -> (n <= Z.abs k \/ s' = (s + k) mod n) ->
  dropped n s k i = false ->
  (contains1 r (centre1 L c r ((i - s) mod n)) x <-> contains1 r (centre1 L c' r ((i - s') mod n)) x).
Proof.
  intros Hr HL Hn Hc Hs Hd.
  destruct Hs as [Hs|Hs]. { rewrite dropped_all in Hd by auto. discriminate. }
  unfold dropped in Hd.
  assert ((i - s') mod n = (i - s) mod n - k) as Hu.
  { subst s'. rewrite Zminus_mod_idemp_r. replace (i - (s + k)) with ((i - s) - k) by lia.
    rewrite <- Zminus_mod_idemp_l. apply Z.mod_small. lia. }
  rewrite Hu. rewrite !contains1_iff by auto. injz.
  assert ((inject_Z ((i - s) mod n) - inject_Z k) * r == inject_Z ((i - s) mod n) * r - inject_Z k * r)%Q as E1 by ring.
  assert ((inject_Z ((i - s) mod n) - inject_Z k + 1) * r == (inject_Z ((i - s) mod n) + 1) * r - inject_Z k * r)%Q as E2 by ring.
  rewrite E1, E2, Hc. split; intros [A B]; split; lra.
Qed.

(** One axis: a cell covering [x] before the move is dropped exactly when [x]
    leaves the extent. *)
Lemma axis_old L c c' r n s k i x : (0 < r)%Q -> (L == inject_Z n * r)%Q -> 0 < n ->
  (c' == c - inject_Z k * r)%Q ->
  contains1 r (centre1 L c r ((i - s) mod n)) x ->
  (dropped n s k i = false <-> (c' - L / 2 < x /\ x <= c' + L / 2)%Q).
Proof.
  intros Hr HL Hn Hc Hx. unfold dropped. set (u := (i - s) mod n) in *.
  assert (contains1 r (centre1 L c' r (u - k)) x) as C.
  { rewrite contains1_iff in * by auto. injz. 
    assert ((inject_Z u - inject_Z k) * r == inject_Z u * r - inject_Z k * r)%Q as E1 by ring.
    assert ((inject_Z u - inject_Z k + 1) * r == (inject_Z u + 1) * r - inject_Z k * r)%Q as E2 by ring.
    rewrite E1, E2, Hc. split; lra. }
  split.
  - intros H. apply (contains1_inside L c' r (u - k) n x); auto. lia.
  - intros [I1 I2]. pose proof (contains1_bound L c' r (u - k) n x Hr HL I1 C).
    assert (0 <= u - k); [|lia].
    rewrite contains1_iff in C by auto. destruct C as [_ C].
    assert (0 < (inject_Z (u - k) + 1) * r)%Q as P by lra.
    assert (0 * r < (inject_Z (u - k) + 1) * r)%Q as P2 by lra.
    apply Qmult_lt_r in P2; auto. change 1%Q with (inject_Z 1) in P2. rewrite <- inject_Z_plus in P2.
    change 0%Q with (inject_Z 0) in P2. rewrite <- Zlt_Qlt in P2. lia.
Qed.

(** One axis: a cell covering [x] after the move was kept exactly when [x] was
    in the old extent. *)
Lemma axis_new L c c' r n s s' k i x : (0 < r)%Q -> (L == inject_Z n * r)%Q -> 0 < n -> 0 <= i < n ->
  (c' == c - inject_Z k * r)%Q -> (n <= Z.abs k \/ s' = (s + k) mod n) ->
  contains1 r (centre1 L c' r ((i - s') mod n)) x ->
  (dropped n s k i = false <-> (c - L / 2 < x /\ x <= c + L / 2)%Q).
Proof.
  intros Hr HL Hn Hi Hc Hs Hx. split.
  - intros Hd. pose proof (proj2 (axis_kept L c c' r n s s' k i x Hr HL Hn Hc Hs Hd) Hx) as C.
    apply (contains1_inside L c r ((i - s) mod n) n x); auto. apply Z.mod_pos_bound; auto.
  - intros [I1 I2]. 
    (* global cell number of x in the old numbering *)
    set (u' := (i - s') mod n) in *.
    assert (0 <= u' < n) as Hu' by (apply Z.mod_pos_bound; auto).
    assert (contains1 r (centre1 L c r (u' + k)) x) as C.
    { rewrite contains1_iff in * by auto. injz.
      assert ((inject_Z u' + inject_Z k) * r == inject_Z u' * r + inject_Z k * r)%Q as E1 by ring.
      assert ((inject_Z u' + inject_Z k + 1) * r == (inject_Z u' + 1) * r + inject_Z k * r)%Q as E2 by ring.
      rewrite E1, E2. rewrite Hc in Hx. split; lra. }
    pose proof (contains1_bound L c r (u' + k) n x Hr HL I1 C).
    assert (0 <= u' + k).
    { rewrite contains1_iff in C by auto. destruct C as [_ C].
      assert (0 * r < (inject_Z (u' + k) + 1) * r)%Q as P2 by lra.
      apply Qmult_lt_r in P2; auto. change 1%Q with (inject_Z 1) in P2. rewrite <- inject_Z_plus in P2.
      change 0%Q with (inject_Z 0) in P2. rewrite <- Zlt_Qlt in P2. lia. }
    assert (Z.abs k < n) by lia. destruct Hs as [Hs|Hs]; [lia|].
    unfold dropped. assert ((i - s) mod n = u' + k) as ->; [|lia].
    subst u' s'. symmetry. rewrite Zminus_mod_idemp_r in *.
    rewrite <- (Z.mod_small ((i - (s + k)) mod n + k) n) by lia.
    rewrite Zplus_mod_idemp_l. f_equal. lia.
Qed.

Definition moved_ok (m m' : cmap) (rs : list region) (b : bool) (p : vec) : Prop :=
  geo_ok m' /\ reg_ok' m' /\
  layers m' = layers m /\ frame m' = frame m /\ stamp m' = stamp m /\ basic m' = basic m /\
  len m' = len m /\ resn m' = resn m /\ size m' = size m /\
  (forall l, has_layer m' l <-> has_layer m l) /\
  (exists k0 k1, (fst (pos m') == fst (pos m) - inject_Z k0 * resn m)%Q /\
                 (snd (pos m') == snd (pos m) - inject_Z k1 * resn m)%Q) /\
  (Qabs (fst (pos m') - fst p) <= resn m / 2)%Q /\ (Qabs (snd (pos m') - snd p) <= resn m / 2)%Q /\
  (b = true <-> ~ veq (pos m') (pos m)) /\
  (forall l q v, inside m q -> inside m' q -> (world_value m' l q v <-> world_value m l q v)) /\
  (forall l q, In l (layers_to_clear m) -> inside m' q -> ~ inside m q -> world_value m' l q NO_INFORMATION) /\
  (forall i, in_range (size m') i ->
     ((exists r, In r rs /\ in_region r i = true) <-> ~ inside m (centre m' i))).

Lemma inside_dec m q : {inside m q} + {~ inside m q}.
Proof.
  destruct (isInside m q) eqn:K; [left|right].
  - now apply (isInside_iff X).
  - intros C. apply (isInside_iff X) in C. congruence.
Qed.

(** Where a move puts the map. *)
Lemma placed_ok p m m' :
  let k0 := index_shift1 (fsub (fst p) (fst (pos m))) (resn m) in
  let k1 := index_shift1 (fsub (snd p) (snd (pos m))) (resn m) in
  geo_ok m ->
  pos m' = (fadd (fst (pos m)) (position_shift1 k0 (resn m)), fadd (snd (pos m)) (position_shift1 k1 (resn m))) ->
  (exists z0 z1 : Z, (fst (pos m') == fst (pos m) + inject_Z z0 * resn m)%Q /\
                     (snd (pos m') == snd (pos m) + inject_Z z1 * resn m)%Q) /\
  (Qabs (fst (pos m') - fst p) <= resn m / 2)%Q /\ (Qabs (snd (pos m') - snd p) <= resn m / 2)%Q /\
  (negb ((k0 =? 0) && (k1 =? 0)) = true <-> ~ veq (pos m') (pos m)).
Proof.
  intros k0 k1 G E9. pose proof (g_res _ G) as Hr.
  assert (P0 : (fst (pos m') == fst (pos m) - inject_Z k0 * resn m)%Q).
  { rewrite E9; cbn [fst]. rewrite (fadd_eq X). unfold position_shift1. rewrite (fmul_eq X). injz. ring. }
  assert (P1 : (snd (pos m') == snd (pos m) - inject_Z k1 * resn m)%Q).
  { rewrite E9; cbn [snd]. rewrite (fadd_eq X). unfold position_shift1. rewrite (fmul_eq X). injz. ring. }
  split. { exists (- k0), (- k1). rewrite !inject_Z_opp. split; [rewrite P0|rewrite P1]; ring. }
  assert (Near : forall c q k, (k = index_shift1 (fsub q c) (resn m)) ->
      (Qabs (c - inject_Z k * resn m - q) <= resn m / 2)%Q).
  { intros c q k ->. pose proof (index_shift1_near (fsub q c) (resn m) Hr) as K.
    apply Qabs_Qle_condition in K. apply Qabs_Qle_condition.
    pose proof (fsub_eq X q c) as FE. destruct K as [K1 K2].
    generalize dependent (index_shift1 (fsub q c) (resn m)). intros k K1 K2. rewrite FE in K1, K2. split; lra. }
  split; [rewrite P0; now apply Near|]. split; [rewrite P1; now apply Near|].
  split.
  - intros Hb [V0 V1]. apply negb_true_iff in Hb.
    assert (forall k c c', (c' == c - inject_Z k * resn m)%Q -> (c' == c)%Q -> k = 0) as KZ.
    { intros k c c' A C. assert (inject_Z k * resn m == 0)%Q as M0 by lra.
      apply Qmult_integral in M0. destruct M0 as [M0|M0]; [|lra].
      unfold Qeq in M0; simpl in M0; lia. }
    rewrite (KZ k0 _ _ P0 V0), (KZ k1 _ _ P1 V1) in Hb. discriminate.
  - intros Hn. apply negb_true_iff. destruct (Z.eqb_spec k0 0), (Z.eqb_spec k1 0); auto.
    exfalso. apply Hn. rewrite e in P0. rewrite e0 in P1. injz. split; lra.
Qed.

Lemma move_ok p m :
  let k0 := index_shift1 (fsub (fst p) (fst (pos m))) (resn m) in
  let k1 := index_shift1 (fsub (snd p) (snd (pos m))) (resn m) in
  geo_ok m -> reg_ok' m -> basics_exist m ->
  bound_wraps (fst (size m)) (fst (start m)) k0 -> bound_wraps (snd (size m)) (snd (start m)) k1 ->
  exists b rs m', move p m = Ret (b, rs) m' /\ moved_ok m m' rs b p.
Proof.
  intros k0 k1 G R B W0 W1.
  destruct (move_state p m R B (g_start _ G) W0 W1) as
    (rs & m' & H & R' & E1 & E2 & E3 & E4 & E5 & E6 & E7 & E8 & E9 & N & V & RG).
  fold k0 k1 in H, E8, E9, V, RG.
  pose proof (g_res _ G) as Hr. destruct (g_size _ G) as [Z0 Z1].
  destruct (g_len _ G) as [L0 L1]; cbn [fst snd] in L0, L1.
  assert (P0 : (fst (pos m') == fst (pos m) - inject_Z k0 * resn m)%Q).
  { rewrite E9; cbn [fst]. rewrite (fadd_eq X). unfold position_shift1. rewrite (fmul_eq X). injz. ring. }
  assert (P1 : (snd (pos m') == snd (pos m) - inject_Z k1 * resn m)%Q).
  { rewrite E9; cbn [snd]. rewrite (fadd_eq X). unfold position_shift1. rewrite (fmul_eq X). injz. ring. }
  assert (T0 : fst (size m) <= Z.abs k0 \/ fst (start m') = (fst (start m) + k0) mod fst (size m)).
  { destruct W0 as [W0|W0]; auto. right. rewrite E8; cbn [fst]. exact W0. }
  assert (T1 : snd (size m) <= Z.abs k1 \/ snd (start m') = (snd (start m) + k1) mod snd (size m)).
  { destruct W1 as [W1|W1]; auto. right. rewrite E8; cbn [snd]. exact W1. }
  assert (G' : geo_ok m').
  { constructor; rewrite ?E6, ?E7, ?E5; auto. apply (g_len _ G). rewrite E8.
    split; apply bound1_range; auto. }
  eexists _, rs, m'. split; [exact H|]. unfold moved_ok. split; auto. split; auto.
  split; auto. split; auto. split; auto. split; auto. split; auto. split; auto. split; auto.
  split.
  { intros l. split; intros [d Hd].
    - unfold has_layer. destruct (aget (data m) l) eqn:K; eauto. rewrite (N l K) in Hd. discriminate.
    - destruct (V l d Hd) as (d' & Hd' & _). now exists d'. }
  split; [eauto|].
  destruct (placed_ok p m m' G E9) as (_ & PN0 & PN1 & PB). split; auto. split; auto. split; auto.
  (* same buffer cell before and after, per position *)
  assert (Kept : forall i q, in_range (size m) i ->
     dropped (fst (size m)) (fst (start m)) k0 (fst i) = false ->
     dropped (snd (size m)) (snd (start m)) k1 (snd i) = false ->
     (contains (resn m) (centre m i) q <-> contains (resn m') (centre m' i) q)).
  { intros i q Hi D0 D1. unfold contains, centre. rewrite E6. cbn [fst snd]. unfold world_index.
    rewrite E5, E7. cbn [fst snd].
    pose proof (axis_kept (fst (len m)) (fst (pos m)) (fst (pos m')) (resn m) (fst (size m)) (fst (start m)) (fst (start m')) k0 (fst i) (fst q) Hr L0 Z0 P0 T0 D0).
    pose proof (axis_kept (snd (len m)) (snd (pos m)) (snd (pos m')) (resn m) (snd (size m)) (snd (start m)) (snd (start m')) k1 (snd i) (snd q) Hr L1 Z1 P1 T1 D1).
    tauto. }
  assert (Old : forall i q, in_range (size m) i -> contains (resn m) (centre m i) q -> 
     (dropped (fst (size m)) (fst (start m)) k0 (fst i) || dropped (snd (size m)) (snd (start m)) k1 (snd i) = false <-> inside m' q)).
  { intros i q Hi [C0 C1]. unfold inside. rewrite E5. rewrite orb_false_iff.
    rewrite (axis_old (fst (len m)) (fst (pos m)) (fst (pos m')) (resn m) (fst (size m)) (fst (start m)) k0 (fst i) (fst q)) by auto.
    rewrite (axis_old (snd (len m)) (snd (pos m)) (snd (pos m')) (resn m) (snd (size m)) (snd (start m)) k1 (snd i) (snd q)) by auto.
    tauto. }
  assert (New : forall i q, in_range (size m) i -> contains (resn m') (centre m' i) q -> 
     (dropped (fst (size m)) (fst (start m)) k0 (fst i) || dropped (snd (size m)) (snd (start m)) k1 (snd i) = false <-> inside m q)).
  { intros i q Hi [C0 C1]. unfold inside. rewrite orb_false_iff. unfold centre, world_index in C0, C1. cbn [fst snd] in C0, C1.
    rewrite E5, E6, E7 in C0, C1. destruct Hi as [Hi0 Hi1].
    rewrite (axis_new (fst (len m)) (fst (pos m)) (fst (pos m')) (resn m) (fst (size m)) (fst (start m)) (fst (start m')) k0 (fst i) (fst q)) by auto.
    rewrite (axis_new (snd (len m)) (snd (pos m)) (snd (pos m')) (resn m) (snd (size m)) (snd (start m)) (snd (start m')) k1 (snd i) (snd q)) by auto.
    tauto. }
  split; [|split].
  - intros l q v I1 I2.
    destruct (getIndex_contains X m q G I1) as [Ri Ci]. set (i := snd (getIndex m q)) in *.
    pose proof (proj2 (Old i q Ri Ci) I2) as D. 
    pose proof D as D'. apply orb_false_iff in D'. destruct D' as [D0 D1].
    pose proof (proj1 (Kept i q Ri D0 D1) Ci) as Ci'.
    assert (Val : forall d d', aget (data m) l = Some d -> aget (data m') l = Some d' ->
                  mget d' (fst i) (snd i) = mget d (fst i) (snd i)).
    { intros d d' Hd Hd'. destruct (V l d Hd) as (d2 & Hd2 & Vd). rewrite Hd2 in Hd'. injection Hd' as <-.
      rewrite Vd by auto. rewrite D0, D1. reflexivity. }
    split.
    + intros (j & d' & Hj & Hd' & Hv & Hc). rewrite E7 in Hj.
      assert (j = i). { apply (covering_unique m' j i q); auto; now rewrite E7. } subst j.
      destruct (aget (data m) l) as [d|] eqn:K; [|rewrite (N l K) in Hd'; discriminate].
      exists i, d. split; auto. split; auto. split; auto. rewrite <- (Val d d'); auto.
    + intros (j & d & Hj & Hd & Hv & Hc).
      assert (j = i) by (apply (covering_unique m j i q); auto). subst j.
      destruct (V l d Hd) as (d' & Hd' & _). exists i, d'. rewrite E7. split; auto. split; auto.
      split; auto. rewrite (Val d d'); auto.
  - intros l q Hl I2 NI.
    destruct (getIndex_contains X m' q G' I2) as [Ri Ci]. rewrite E7 in Ri. set (i := snd (getIndex m' q)) in *.
    destruct (to_clear_exist m (proj1 R) B l Hl) as [d Hd].
    destruct (V l d Hd) as (d' & Hd' & Vd). exists i, d'. rewrite E7. split; auto. split; auto. split; auto.
    rewrite Vd by auto. rewrite (proj2 (smem_In l _)) by auto. cbn [orb]. rewrite !andb_true_r.
    destruct (dropped _ _ k0 _ || dropped _ _ k1 _) eqn:D; auto.
    apply (New i q Ri Ci) in D. tauto.
  - intros i Hi. rewrite E7 in Hi. rewrite <- existsb_exists, RG by auto.
    pose proof (New i (centre m' i) Hi (centre_contains m' i G')) as K. rewrite <- K.
    destruct (_ || _); split; intros; congruence.
Qed.

(** ** Histories of moves *)

Lemma move_trace_ok m tr m' : bpol = BWrap -> geo_ok m -> reg_ok' m -> basics_exist m ->
  move_trace m tr m' ->
  (geo_ok m' /\ reg_ok' m' /\ basics_exist m' /\ layers_to_clear m' = layers_to_clear m /\
   resn m' = resn m /\ size m' = size m) /\
  (forall l q v, inside m' q -> (forall mi, In mi (map fst tr) -> inside mi q) ->
     (world_value m' l q v <-> world_value m l q v)) /\
  (forall l q, In l (layers_to_clear m) -> inside m' q -> (exists mi, In mi (map fst tr) /\ ~ inside mi q) ->
     world_value m' l q NO_INFORMATION).
Proof.
  intros P G R B H. induction H as [|tr m1 p b rs m2 H IH Hm].
  - split; [auto 10|]. split; [tauto|]. intros l q _ _ (mi & [] & _).
  - destruct IH as ((G1 & R1 & B1 & C1 & Rs1 & S1) & I1 & I2).
    destruct (g_size _ G1) as [Z0 Z1].
    destruct (move_ok p m1) as (b' & rs' & m2' & Hm' & M); auto using bound_wraps_BWrap.
    rewrite Hm in Hm'. injection Hm' as <- <- <-.
    destruct M as (G2 & R2 & E1 & E2 & E3 & E4 & E5 & E6 & E7 & HL & _ & _ & _ & _ & W1 & W2 & _).
    split.
    { split; auto. split; auto. split.
      - intros l Hl. rewrite E4 in Hl. apply HL. now apply B1.
      - split; [|split; congruence]. unfold layers_to_clear in *. rewrite E4, E1. exact C1. }
    split.
    + intros l q v I Hall. assert (inside m1 q) as Im1 by (apply Hall; rewrite map_app, in_app_iff; simpl; auto).
      rewrite (W1 l q v Im1 I). apply I1; auto. intros mi Hmi. apply Hall. rewrite map_app, in_app_iff; auto.
    + intros l q Hl I (mi & Hmi & NI). rewrite map_app, in_app_iff in Hmi.
      destruct (inside_dec m1 q) as [D|D].
      * apply (W1 l q _ D I). apply I2; auto.
        destruct Hmi as [Hmi|[<-|[]]]; [eauto|tauto].
      * apply W2; auto. rewrite C1. exact Hl.
Qed.

(** Moves never fail on such maps. *)
Lemma move_total p m : bpol = BWrap -> geo_ok m -> reg_ok' m -> basics_exist m ->
  exists b rs m', move p m = Ret (b, rs) m'.
Proof.
  intros P G R B. destruct (g_size _ G) as [Z0 Z1].
  destruct (move_ok p m) as (b & rs & m' & H & _); auto using bound_wraps_BWrap. eauto.
Qed.

(** With the clamping bound, a move whose shifts keep the start index inside the
    buffer (or drop everything) still is correct. *)
Lemma bound_wraps_small n s k : 0 <= s + k < n -> bound_wraps n s k.
Proof. intros H. right. rewrite bound1_in_range by auto. symmetry. apply Z.mod_small; auto. Qed.

Lemma move_clamp_ok p m b rs m' : geo_ok m -> reg_ok' m -> basics_exist m ->
  move p m = Ret (b, rs) m' ->
  forall k0 k1, (Qabs (fst p - fst (pos m) + inject_Z k0 * resn m) < resn m / 2)%Q ->
    (Qabs (snd p - snd (pos m) + inject_Z k1 * resn m) < resn m / 2)%Q ->
    (0 <= fst (start m) + k0 < fst (size m) \/ fst (size m) <= Z.abs k0) ->
    (0 <= snd (start m) + k1 < snd (size m) \/ snd (size m) <= Z.abs k1) ->
    moved_ok m m' rs b p.
Proof.
  intros G R B H k0 k1 N0 N1 C0 C1. pose proof (g_res _ G) as Hr.
  assert (U : forall d k, (Qabs (d + inject_Z k * resn m) < resn m / 2)%Q -> forall d', (d' == d)%Q -> index_shift1 d' (resn m) = k).
  { intros d k K d' Hd. pose proof (index_shift1_near d' (resn m) Hr) as Q.
    apply Qabs_Qle_condition in Q. apply Qabs_Qlt_condition in K. destruct Q as [Q1 Q2], K as [K1 K2].
    set (k' := index_shift1 d' (resn m)) in *.
    assert (T1 : (inject_Z k' * resn m < (inject_Z k + 1) * resn m)%Q).
    { assert ((inject_Z k + 1) * resn m == inject_Z k * resn m + resn m)%Q as -> by ring.
      assert (resn m / 2 + resn m / 2 == resn m)%Q by field. lra. }
    assert (T2 : (inject_Z k * resn m < (inject_Z k' + 1) * resn m)%Q).
    { assert ((inject_Z k' + 1) * resn m == inject_Z k' * resn m + resn m)%Q as -> by ring.
      assert (resn m / 2 + resn m / 2 == resn m)%Q by field. lra. }
    apply Qmult_lt_r in T1, T2; auto. change 1%Q with (inject_Z 1) in T1, T2.
    rewrite <- inject_Z_plus, <- Zlt_Qlt in T1, T2. lia. }
  pose proof (U _ _ N0 _ (fsub_eq X _ _)) as U0. pose proof (U _ _ N1 _ (fsub_eq X _ _)) as U1.
  destruct (move_ok p m) as (b' & rs' & m2 & H' & M); auto.
  - rewrite U0. destruct C0; [now apply bound_wraps_small|now left].
  - rewrite U1. destruct C1; [now apply bound_wraps_small|now left].
  - rewrite H in H'. injection H' as <- <- <-. exact M.
Qed.

End MoveExact.
