(** The int versions agree with the unbounded ones on maps with fewer than 2^29
    rows and columns. *)
From Coq Require Import ZArith QArith Qabs Qround List Bool Lia Lqa.
From Verif Require Import Base Mat GridMapMath GridIter CostMap Iterators Spec BaseLemmas GeoLemmas CoreProofs IterProofs MoveProofs DoubleSpec DoubleGeo IntModel.
Import ListNotations.
Open Scope Z_scope.

Definition limit : Z := 536870912.
Definition small (n : idx) : Prop := fst n < limit /\ snd n < limit.

Lemma int_ok z : -2147483648 <= z < 2147483648 -> int z = Some z.
Proof. intros H. unfold int. replace (_ && _) with true by (symmetry; lia). reflexivity. Qed.

Lemma idiv_ok a b : 0 < b -> -2147483648 <= a < 2147483648 -> idiv a b = Some (Z.quot a b).
Proof.
  intros B A. unfold idiv. destruct (Z.eqb_spec b 0); [lia|]. apply int_ok.
  assert (Z.abs (Z.quot a b) <= Z.abs a). { rewrite <- Z.quot_abs by lia. rewrite Z.quot_div_nonneg by lia.
    apply Z.div_le_upper_bound; nia. }
  destruct (Z.eq_dec (Z.quot a b) 2147483648) as [Q|Q]; [|lia].
  exfalso. assert (0 <= a \/ a < 0) as [K|K] by lia; [lia|].
  assert (Z.quot a b <= 0). { replace a with (- (- a)) by lia. rewrite Z.quot_opp_l by lia. assert (0 <= Z.quot (- a) b) by (apply Z.quot_pos; lia). lia. } lia.
Qed.

Lemma irem_ok a b : 0 < b < 2147483648 -> -2147483648 <= a < 2147483648 -> irem a b = Some (Z.rem a b).
Proof.
  intros B A. unfold irem. pose proof (idiv_ok a b ltac:(lia) A) as D. unfold idiv in D.
  destruct (Z.eqb_spec b 0); [lia|]. rewrite D. cbn [obind]. apply int_ok.
  pose proof (Z.rem_bound_abs a b ltac:(lia)). lia.
Qed.

Section Int.
Context {E : Env}.

Lemma iwrap1_ok i n : 0 < n < limit -> -1073741824 <= i < 2147483648 -> iwrap1 i n = Some (wrap1 i n).
Proof.
  unfold limit. intros N I. unfold iwrap1, wrap1. destruct (Z.ltb_spec i 0) as [L|L].
  - rewrite int_ok by lia. cbn [obind]. rewrite idiv_ok by lia. cbn [obind].
    assert (Q : 0 <= Z.quot (- i) n /\ Z.quot (- i) n * n <= - i).
    { rewrite Z.quot_div_nonneg by lia. split; [apply Z.div_pos; lia|]. pose proof (Z.mul_div_le (- i) n ltac:(lia)). lia. }
    assert (Z.quot (- i) n <= - i) by nia.
    rewrite int_ok by lia. cbn [obind]. rewrite int_ok by nia. cbn [obind]. rewrite int_ok by nia. cbn [obind].
    apply irem_ok; [lia|nia].
  - cbn [obind]. apply irem_ok; lia.
Qed.

Lemma ibound1_ok i n : 0 < n < limit -> -1073741824 <= i < 2147483648 -> ibound1 i n = Some (bound1 i n).
Proof.
  intros N I. unfold ibound1, bound1. destruct bpol; [|now apply iwrap1_ok].
  destruct (i <? 0); auto. destruct (n <=? i); auto. apply int_ok. unfold limit in N. lia.
Qed.

Lemma iunwrap_ok b n s : in_range n s -> small n -> -limit <= fst b <= limit -> -limit <= snd b <= limit ->
  iunwrap_index b n s = Some (unwrap_index b n s).
Proof.
  unfold small, limit, in_range. intros [S0 S1] [N0 N1] B0 B1. unfold iunwrap_index, unwrap_index. destruct (idx_eqb s (0, 0)); auto.
  rewrite !int_ok by lia. cbn [obind]. rewrite !iwrap1_ok by (unfold limit; lia). reflexivity.
Qed.

Lemma iwrap_ok i n s : in_range n s -> small n -> -1073741824 <= fst i <= 1073741824 -> -1073741824 <= snd i <= 1073741824 ->
  iwrap_index i n s = Some (wrap_index i n s).
Proof.
  unfold small, limit, in_range. intros [S0 S1] [N0 N1] B0 B1. unfold iwrap_index, wrap_index. destruct (idx_eqb s (0, 0)); auto.
  rewrite !int_ok by lia. cbn [obind]. rewrite !iwrap1_ok by (unfold limit; lia). reflexivity.
Qed.

Lemma iincrement_ok b n s : in_range n s -> small n -> in_range n b -> iincrement_index b n s = Some (increment_index b n s).
Proof.
  intros S N B. pose proof (unwrap_in_range b n s B S) as U. unfold iincrement_index, increment_index.
  unfold small, limit in *. rewrite iunwrap_ok by (unfold small, limit, in_range in *; lia || auto). cbn [obind].
  set (u := unwrap_index b n s) in *. unfold in_range in *.
  rewrite int_ok by lia. cbn [obind].
  destruct (snd u + 1 <? snd n) eqn:K; cbn [obind].
  - destruct (index_in_range (fst u, snd u + 1) n) eqn:R; auto. rewrite iwrap_ok; auto; cbn [fst snd]; unfold small, limit, in_range; lia.
  - rewrite int_ok by lia. cbn [obind]. destruct (index_in_range (fst u + 1, 0) n) eqn:R; auto.
    rewrite iwrap_ok; auto; cbn [fst snd]; unfold small, limit, in_range; lia.
Qed.

Lemma iincrement_submap_ok si b tl sn n s : in_range n s -> small n -> in_range n tl -> small sn ->
  -limit <= fst si <= limit -> -limit <= snd si <= limit ->
  iincrement_submap si b tl sn n s = Some (increment_submap si b tl sn n s).
Proof.
  intros S N T SN I0 I1. pose proof (unwrap_in_range tl n s T S) as U. unfold iincrement_submap, increment_submap.
  set (si' := if snd si + 1 <? snd sn then (fst si, snd si + 1) else (fst si + 1, 0)).
  rewrite int_ok by (unfold limit in *; lia). cbn [obind].
  assert ((if snd si + 1 <? snd sn then Some (fst si, snd si + 1) else obind (int (fst si + 1)) (fun r => Some (r, 0))) = Some si') as ->.
  { unfold si'. destruct (_ <? _); auto. rewrite int_ok by (unfold limit in *; lia). reflexivity. }
  cbn [obind]. destruct (index_in_range si' sn) eqn:K; cbn [negb]; auto. apply index_in_range_iff in K.
  unfold small, limit, in_range in *. rewrite iunwrap_ok by (unfold small, limit, in_range in *; lia || auto). cbn [obind].
  rewrite !int_ok by lia. cbn [obind]. rewrite iwrap_ok; auto; cbn [fst snd]; unfold small, limit, in_range; lia.
Qed.

Lemma isubmap_size_ok a b n s : in_range n s -> small n -> in_range n a -> in_range n b ->
  isubmap_size_from_corners a b n s = Some (submap_size_from_corners a b n s).
Proof.
  intros S N A B. pose proof (unwrap_in_range a n s A S) as UA. pose proof (unwrap_in_range b n s B S) as UB.
  unfold isubmap_size_from_corners, submap_size_from_corners, small, limit, in_range in *.
  rewrite !iunwrap_ok by (unfold small, limit, in_range in *; lia || auto). cbn [obind].
  rewrite !int_ok by lia. cbn [obind]. rewrite !int_ok by lia. reflexivity.
Qed.

Lemma ilinear_ok i n : in_range n i -> fst n * snd n < 2147483648 -> ilinear_index i n = Some (linear_index i n).
Proof.
  unfold in_range. intros [A B] C. unfold ilinear_index, linear_index.
  assert (0 <= snd i * fst n <= (snd n - 1) * fst n) by nia. rewrite int_ok by nia. cbn [obind]. apply int_ok. nia.
Qed.

Lemma ibuffer_ok si sn n s : in_range n s -> small n -> in_range n si -> 0 <= fst sn -> 0 <= snd sn -> small sn ->
  ibuffer_regions si sn n s = Some (buffer_regions si sn n s).
Proof.
  intros S N I P0 P1 SN. pose proof (unwrap_in_range si n s I S) as U. unfold ibuffer_regions, buffer_regions.
  unfold small, limit, in_range in *. rewrite iunwrap_ok by (unfold small, limit, in_range in *; lia || auto). cbn [obind].
  set (u := unwrap_index si n s) in *. rewrite (int_ok (fst u + fst sn)), (int_ok (snd u + snd sn)) by lia. cbn [obind].
  destruct ((fst n <? fst u + fst sn) || (snd n <? snd u + snd sn)) eqn:K; auto.
  rewrite (int_ok (fst u + fst sn - 1)) by lia. cbn [obind]. rewrite (int_ok (snd u + snd sn - 1)) by lia. cbn [obind].
  rewrite iwrap_ok by (cbn [fst snd]; unfold small, limit, in_range; lia). cbn [obind].
  rewrite (int_ok (fst n - fst si)), (int_ok (snd n - snd si)) by lia. cbn [obind].
  rewrite (int_ok (fst sn - (fst n - fst si))), (int_ok (snd sn - (snd n - snd si))) by lia. cbn [obind].
  match goal with |- context [wrap_index ?a ?b ?c] => set (e := wrap_index a b c) end.
  destruct (get_quadrant si s), (get_quadrant e s); reflexivity.
Qed.

(** ** Loops *)

Lemma irun_ok {I A} (past : I -> bool) (cur : I -> A) next (inext : I -> option I) (Inv : I -> Prop) :
  (forall it, Inv it -> past it = false -> inext it = Some (next it) /\ Inv (next it)) ->
  forall fuel it l, Inv it -> run past cur next fuel it = Ok l -> irun past cur inext fuel it = Some l.
Proof.
  intros H. induction fuel as [|f IH]; intros it l K R; [discriminate|]. cbn [run irun] in *. destruct (past it) eqn:P; [now injection R as <-|].
  destruct (H it K P) as [-> K']. cbn [obind]. destruct (run past cur next f (next it)) as [l'| |] eqn:R'; try discriminate.
  injection R as <-. now rewrite (IH _ l' K' R').
Qed.

Lemma imap_visits_ok n s : in_range n s -> small n -> exists vs, map_visits n s = Ok vs /\ imap_visits n s = Some vs.
Proof.
  intros S N. exists (visit_list n s). split; [now apply map_visits_ok|]. pose proof (map_visits_ok n s S) as R.
  unfold map_visits in R. destruct (map_iter_new_ok n s S) as (e & Q & He). rewrite Q in R. cbn [rbind] in R. subst e.
  unfold imap_visits, imap_iter_new. assert (S' := S). assert (N' := N). unfold in_range, small, limit in S', N'.
  rewrite !int_ok by lia. cbn [obind]. rewrite !int_ok by lia. cbn [obind]. rewrite !ibound1_ok by (unfold limit; lia). cbn [obind].
  apply (irun_ok mi_past mi_index map_iter_next imap_iter_next
    (fun it => mi_size it = n /\ mi_start it = s /\ in_range n (mi_index it))); auto.
  intros [sz st en ix pa] (A & B & C) P. cbn [mi_size mi_start mi_index] in *. subst sz st.
  unfold imap_iter_next, map_iter_next. cbn [mi_size mi_start mi_index mi_end]. rewrite iincrement_ok by auto. cbn [obind].
  assert (IR : in_range n (snd (increment_index ix n s))).
  { unfold increment_index. destruct (index_in_range _ n) eqn:K; cbn [snd]; auto. apply index_in_range_iff in K. now apply wrap_in_range. }
  destruct (increment_index ix n s) as [ok i]. cbn [fst snd] in *. split; auto.
Qed.

Lemma isub_visits_ok n s a sn l : in_range n s -> small n -> in_range n a -> small sn -> sub_visits n s a sn = Ok l -> isub_visits n s a sn = Some l.
Proof.
  intros S N A SN R. unfold sub_visits in R. unfold isub_visits.
  refine (irun_ok sb_past _ sub_iter_next isub_iter_next
    (fun it => sb_size it = n /\ sb_start it = s /\ sb_sstart it = a /\ sb_ssize it = sn /\
       0 <= fst (sb_sindex it) <= limit /\ 0 <= snd (sb_sindex it) <= limit) _ _ _ l _ R).
  - intros [z0 z1 z2 z3 ix si pa] (A1 & A2 & A3 & A4 & A5 & A6) P. cbn [sb_size sb_start sb_sstart sb_ssize sb_sindex sb_index] in *. subst z0 z1 z2 z3.
    unfold isub_iter_next, sub_iter_next. cbn [sb_size sb_start sb_sstart sb_ssize sb_sindex sb_index].
    rewrite iincrement_submap_ok by (auto; unfold limit in *; lia). cbn [obind].
    assert (B : let '(_, si', _) := increment_submap si ix a sn n s in 0 <= fst si' <= limit /\ 0 <= snd si' <= limit).
    { unfold increment_submap. destruct (index_in_range _ sn) eqn:K; cbn [negb]; auto. apply index_in_range_iff in K.
      unfold small, in_range in *. lia. }
    destruct (increment_submap si ix a sn n s) as [[ok si'] i]. split; [reflexivity|]. cbn [sb_size sb_start sb_sstart sb_ssize sb_sindex sb_index]. destruct B. repeat split; try tauto; lia.
  - cbn. unfold limit. intuition lia.
Qed.

Lemma iline_new_ok a b : -limit < fst a < limit -> -limit < snd a < limit -> -limit < fst b < limit -> -limit < snd b < limit ->
  iline_new a b = Some (line_new a b).
Proof.
  unfold limit. intros A0 A1 B0 B1. unfold iline_new, line_new. rewrite !int_ok by lia. cbn [obind]. rewrite !int_ok by lia. cbn [obind].
  destruct (_ <=? _); rewrite idiv_ok by lia; cbn [obind]; rewrite int_ok by lia; reflexivity.
Qed.

Lemma iline_visits_ok a b l : -limit < fst a < limit -> -limit < snd a < limit -> -limit < fst b < limit -> -limit < snd b < limit ->
  line_visits a b = Ok l -> iline_visits a b = Some l.
Proof.
  intros A0 A1 B0 B1 R. unfold iline_visits. rewrite iline_new_ok by auto. cbn [obind]. unfold line_visits, line_run in R.
  refine (irun_ok line_past _ line_next iline_next
    (fun it => 0 <= li_icell it <= li_ncells it /\ li_ncells it < 2 * limit /\
       0 <= li_add it <= li_den it /\ 0 <= li_num it <= li_den it /\ li_den it < 2 * limit - 1 /\
       Z.abs (fst (li_inc1 it)) + Z.abs (fst (li_inc2 it)) <= 1 /\ Z.abs (snd (li_inc1 it)) + Z.abs (snd (li_inc2 it)) <= 1 /\
       Z.abs (fst (li_index it)) <= limit + li_icell it /\ Z.abs (snd (li_index it)) <= limit + li_icell it) _ _ _ l _ R).
  - intros [ix ic nc i1 i2 de nu ad]. unfold line_past. cbn [li_index li_icell li_ncells li_inc1 li_inc2 li_den li_num li_add].
    unfold limit. intros (H1 & H2 & H3 & H4 & H5 & H6 & H7 & H8 & H9) P.
    unfold iline_next, line_next. cbn [li_index li_icell li_ncells li_inc1 li_inc2 li_den li_num li_add].
    rewrite (int_ok (nu + ad)) by lia. cbn [obind].
    destruct (Z.leb_spec de (nu + ad)) as [K|K].
    + rewrite (int_ok (nu + ad - de)) by lia. cbn [obind]. rewrite (int_ok (fst ix + fst i1)), (int_ok (snd ix + snd i1)) by lia. cbn [obind fst snd].
      rewrite (int_ok (fst ix + fst i1 + fst i2)), (int_ok (snd ix + snd i1 + snd i2)), (int_ok (ic + 1)) by lia. cbn [obind].
      split; [reflexivity|]. cbn [li_index li_icell li_ncells li_inc1 li_inc2 li_den li_num li_add fst snd]. lia.
    + cbn [obind]. rewrite (int_ok (fst ix + fst i2)), (int_ok (snd ix + snd i2)), (int_ok (ic + 1)) by lia. cbn [obind].
      split; [reflexivity|]. cbn [li_index li_icell li_ncells li_inc1 li_inc2 li_den li_num li_add fst snd]. lia.
  - unfold line_new, limit in *. destruct (_ <=? _) eqn:K; cbn [li_index li_icell li_ncells li_inc1 li_inc2 li_den li_num li_add fst snd];
      rewrite Z.quot_div_nonneg by lia; destruct (fst a <=? fst b), (snd a <=? snd b); cbn [Z.abs]; 
      pose proof (Z.div_le_upper_bound (Z.abs (fst b - fst a)) 2 (Z.abs (fst b - fst a)) ltac:(lia) ltac:(lia));
      pose proof (Z.div_le_upper_bound (Z.abs (snd b - snd a)) 2 (Z.abs (snd b - snd a)) ltac:(lia) ltac:(lia));
      pose proof (Z.div_pos (Z.abs (fst b - fst a)) 2 ltac:(lia) ltac:(lia));
      pose proof (Z.div_pos (Z.abs (snd b - snd a)) 2 ltac:(lia) ltac:(lia)); lia.
Qed.

(** ** Positions *)

Lemma trunc_bound q B : (- inject_Z B <= q)%Q -> (q <= inject_Z B)%Q -> - B <= Qtrunc q <= B.
Proof.
  intros H1 H2. destruct (Qlt_le_dec q 0) as [C|C].
  - assert (K : Qtrunc q = - Qfloor (- q)). { rewrite <- Qtrunc_nonneg by Lqa.lra. rewrite Qtrunc_opp. lia. }
    rewrite K. assert (A : Qfloor (- q) <= Qfloor (inject_Z B)) by (apply Qfloor_resp_le; Lqa.lra).
    assert (A' : Qfloor (inject_Z 0) <= Qfloor (- q)) by (apply Qfloor_resp_le; change (inject_Z 0) with 0%Q; Lqa.lra).
    rewrite Qfloor_Z in A, A'. lia.
  - rewrite Qtrunc_nonneg by auto. assert (A : Qfloor q <= Qfloor (inject_Z B)) by (apply Qfloor_resp_le; Lqa.lra).
    assert (A' : Qfloor (inject_Z 0) <= Qfloor q) by (apply Qfloor_resp_le; change (inject_Z 0) with 0%Q; Lqa.lra).
    rewrite Qfloor_Z in A, A'. lia.
Qed.

Context (N : Near E).

Lemma ishift_ok d r : (0 < r)%Q -> (- ((536870912 # 1) * r) <= d)%Q -> (d <= (536870912 # 1) * r)%Q ->
  iindex_shift1 (rnd d) r = Some (index_shift1 (rnd d) r) /\ -1073741824 <= index_shift1 (rnd d) r <= 1073741824.
Proof.
  intros R H1 H2. destruct (nr N d _ H1 H2) as [A1 A2].
  destruct (div_bounds (rnd d) r (536870913#1) R) as [B1 B2]; [unfold ulp in *; Lqa.lra|unfold ulp in *; Lqa.lra|].
  destruct (nr N (rnd d / r) _ B1 B2) as [C1 C2].
  set (x := rnd (rnd d / r)) in *. set (y := (x + (if Qlt_bool 0 x then 1#2 else - (1#2)))%Q).
  assert (Y : (- (536870915#1) <= y /\ y <= 536870915#1)%Q).
  { unfold y. destruct (Qlt_bool 0 x); unfold ulp in *; split; Lqa.lra. }
  destruct (nr N y _ (proj1 Y) (proj2 Y)) as [D1 D2].
  pose proof (trunc_bound (rnd y) 536870916) as T. change (inject_Z 536870916) with (536870916#1) in T.
  specialize (T ltac:(unfold ulp in *; Lqa.lra) ltac:(unfold ulp in *; Lqa.lra)).
  assert (K : index_shift1 (rnd d) r = - Qtrunc (rnd y)).
  { unfold index_shift1, fdiv, fadd. fold x. fold y. apply Qtrunc_opp. }
  unfold iindex_shift1, fdiv, fadd. cbv zeta. fold x. fold y. rewrite int_ok by lia. cbn [obind]. rewrite int_ok by lia. rewrite K. split; [reflexivity|lia].
Qed.

Lemma iraw_ok n p L c r W : 1 <= n < limit -> (0 < r)%Q -> W <= 2 ^ 44 ->
  (Qabs (L - inject_Z n * r) <= ulp * (inject_Z n * r))%Q -> (Qabs c + inject_Z n * r <= inject_Z W * r)%Q ->
  (Qabs (p - c) <= (536870912#1) * r)%Q ->
  iraw_index1 p L c r = Some (raw_index1 p L c r) /\ -1073741824 <= raw_index1 p L c r <= 1073741824.
Proof.
  unfold limit. intros HN R HW HL HC HP.
  assert (N1 : (0 <= inject_Z n * r /\ inject_Z n * r <= (536870912#1) * r)%Q).
  { split; [apply Qmult_le_0_compat; [change 0%Q with (inject_Z 0); rewrite <- Zle_Qle; lia|Lqa.lra]|].
    apply Qmult_le_compat_r; [|Lqa.lra]. change (536870912#1) with (inject_Z 536870912). rewrite <- Zle_Qle. lia. }
  assert (W1 : (inject_Z W * r <= (17592186044416#1) * r)%Q).
  { apply Qmult_le_compat_r; [|Lqa.lra]. change (17592186044416#1) with (inject_Z (2^44)). rewrite <- Zle_Qle. lia. }
  set (nr' := (inject_Z n * r)%Q) in *. set (wr := (inject_Z W * r)%Q) in *. clearbody nr' wr.
  apply Qabs_Qle_condition in HL as [L1 L2]. apply Qabs_Qle_condition in HP as [P1 P2].
  assert (C : (- wr <= c /\ c <= wr)%Q). { apply Qabs_Qle_condition. Lqa.lra. }
  unfold ulp in L1, L2.
  destruct (nr N ((1#2) * L) ((268435457#1) * r)) as [A1 A2]; [Lqa.lra|Lqa.lra|].
  set (a := rnd ((1#2) * L)) in *. unfold ulp in A1, A2.
  destruct (nr N (p - a) ((35184372088832#1) * r)) as [B1 B2]; [Lqa.lra|Lqa.lra|].
  set (b := rnd (p - a)) in *. unfold ulp in B1, B2.
  destruct (nr N (b - c) ((805306400#1) * r)) as [D1 D2]; [Lqa.lra|Lqa.lra|].
  set (d := rnd (b - c)) in *. unfold ulp in D1, D2.
  destruct (div_bounds d r (805306500#1) R) as [E1 E2]; [Lqa.lra|Lqa.lra|].
  destruct (nr N (d / r) _ E1 E2) as [F1 F2]. unfold ulp in F1, F2.
  pose proof (trunc_bound (rnd (d / r)) 1073741824) as T. change (inject_Z 1073741824) with (1073741824#1) in T.
  specialize (T ltac:(Lqa.lra) ltac:(Lqa.lra)).
  assert (K : raw_index1 p L c r = - Qtrunc (rnd (d / r))).
  { unfold raw_index1, fdiv, fsub, fmul. fold a. fold b. fold d. apply Qtrunc_opp. }
  unfold iraw_index1, fdiv, fsub, fmul. fold a. fold b. fold d. rewrite int_ok by lia. cbn [obind]. rewrite int_ok by lia. rewrite K. split; [reflexivity|lia].
Qed.

Lemma igetIndex_ok W m p : W <= 2 ^ 44 -> dgeo W m -> small (size m) -> close ((536870912#1) * resn m) p (pos m) ->
  iindex_from_position p (len m) (pos m) (resn m) (size m) (start m) = Some (getIndex m p).
Proof.
  intros HW G S [P0 P1]. destruct G. unfold iindex_from_position, getIndex, index_from_position. destruct S as [S0 S1].
  destruct (iraw_ok (fst (size m)) (fst p) (fst (len m)) (fst (pos m)) (resn m) W) as [-> R0]; auto; [lia|].
  destruct (iraw_ok (snd (size m)) (snd p) (snd (len m)) (snd (pos m)) (resn m) W) as [-> R1]; auto; [lia|].
  cbn [obind]. rewrite iwrap_ok by (auto; unfold small; auto). reflexivity.
Qed.

Lemma igetPosition_ok m i : in_range (size m) (start m) -> small (size m) ->
  iposition_from_index i (len m) (pos m) (resn m) (size m) (start m) = Some (getPosition m i).
Proof.
  intros R S. unfold iposition_from_index, getPosition, position_from_index. destruct (index_in_range i (size m)) eqn:K; auto.
  apply index_in_range_iff in K. pose proof (unwrap_in_range i (size m) (start m) K R) as U. unfold small, limit, in_range in *.
  rewrite iunwrap_ok by (unfold small, limit, in_range in *; lia || auto). cbn [obind]. rewrite !int_ok by lia. reflexivity.
Qed.

(** ** Moves *)

Lemma imove_axis_ok (rows : bool) k m : in_range (size m) (start m) -> small (size m) -> -1073741824 <= k <= 1073741824 ->
  imove_axis rows k m = move_axis rows k m.
Proof.
  intros S Z K. unfold imove_axis, move_axis.
  set (n := if rows then fst (size m) else snd (size m)). set (s := if rows then fst (start m) else snd (start m)).
  assert (H : 0 <= s < n /\ n < limit) by (unfold n, s, small, in_range in *; destruct rows; lia). unfold limit in H.
  destruct (Z.eqb_spec k 0); auto. rewrite int_ok by lia. cbn [with_int].
  destruct (Z.leb_spec n (Z.abs k)); auto.
  set (sign := if 0 <? k then 1 else -1). assert (SG : sign = 1 /\ 0 < k \/ sign = -1 /\ k < 0) by (unfold sign; destruct (Z.ltb_spec 0 k); lia).
  set (si := s - (if sign <? 0 then 1 else 0)). assert (SI : -1 <= si <= s) by (unfold si; destruct (sign <? 0); lia).
  rewrite (int_ok si) by lia. cbn [with_int]. rewrite (int_ok (si - sign)) by lia. cbn [obind]. rewrite (int_ok (si - sign + k)) by lia. cbn [with_int].
  rewrite ibound1_ok by (unfold limit; destruct (0 <? sign); lia). cbn [with_int].
  match goal with |- context [bound1 ?a n] => set (ix := bound1 a n); assert (I : 0 <= ix < n) by (apply bound1_range; lia) end.
  rewrite (int_ok (ix + Z.abs k)) by lia. cbn [with_int].
  destruct (Z.leb_spec (ix + Z.abs k) n); auto. rewrite (int_ok (n - ix)) by lia. cbn [with_int]. rewrite int_ok by lia. reflexivity.
Qed.

Lemma imove_ok p m : (0 < resn m)%Q -> in_range (size m) (start m) -> small (size m) -> reg_ok' m -> basics_exist m ->
  close ((536870912#1) * resn m) p (pos m) -> imove p m = move p m.
Proof.
  intros R S Z G B [P0 P1]. apply Qabs_Qle_condition in P0 as [P0 P0']. apply Qabs_Qle_condition in P1 as [P1 P1'].
  destruct (ishift_ok (fst p - fst (pos m)) (resn m) R P0 P0') as [E0 K0].
  destruct (ishift_ok (snd p - snd (pos m)) (resn m) R P1 P1') as [E1 K1].
  unfold imove, move. unfold fsub at 1 2. rewrite E0, E1. cbn [with_int].
  fold (fsub (fst p) (fst (pos m))) in *. fold (fsub (snd p) (snd (pos m))) in *.
  set (k0 := index_shift1 (fsub (fst p) (fst (pos m))) (resn m)) in *. set (k1 := index_shift1 (fsub (snd p) (snd (pos m))) (resn m)) in *.
  rewrite (int_ok (- k0)), (int_ok (- k1)) by lia. cbn [with_int].
  unfold bind. rewrite imove_axis_ok by auto.
  assert (S' := S). unfold in_range in S'.
  destruct (move_axis_any true k0 m G B ltac:(lia)) as (r0 & m1 & Q0 & W1). rewrite Q0.
  assert (B1 : basics_exist m1) by (eapply wiped_basics; eauto).
  destruct W1 as (G1 & _ & M1 & _). assert (MM : size m1 = size m /\ start m1 = start m) by (unfold same_meta in M1; intuition). destruct MM as [Z1 S1].
  rewrite imove_axis_ok by (rewrite ?Z1, ?S1; auto).
  destruct (move_axis_any false k1 m1 G1 B1 ltac:(rewrite Z1; lia)) as (r1 & m2 & Q1 & W2). rewrite Q1.
  destruct W2 as (_ & _ & M2 & _). assert (MM : size m2 = size m /\ start m2 = start m) by (unfold same_meta in M2; intuition congruence). destruct MM as [Z2 S2].
  rewrite Z2, S2. destruct Z as [Z3 Z4]. unfold limit in *.
  rewrite (int_ok (fst (start m) + k0)), (int_ok (snd (start m) + k1)) by lia. cbn [obind].
  rewrite !ibound1_ok by (unfold limit; lia). cbn [with_int].
  replace (match bpol with BWrap => (fst (size m) =? 0) || (snd (size m) =? 0) | BClamp => false end) with false by (destruct bpol; lia).
  reflexivity.
Qed.

End Int.
