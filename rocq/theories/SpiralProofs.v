(** Proofs about the spiral iterator. *)
From Coq Require Import ZArith QArith Qround Qabs List Bool Lia Lqa Sorting.Sorted.
From Verif Require Import Base Mat GridMapMath GridIter CostMap Iterators Spec BaseLemmas GeoLemmas FilterProofs LineProofs RingProofs.
Import ListNotations.
Open Scope Z_scope.

Definition offset (ic i : idx) : idx := (fst i - fst ic, snd i - snd ic).

(** The map with its start index set back to (0, 0). *)
Definition unmoved (m : cmap) : cmap := set_start m (0, 0).

(** The test made in the two outermost rings. *)
Definition near_b {E : Env} (m : cmap) (c : vec) (R : Q) (q : idx) : bool :=
  match spiral_inside m c R q with Ok b => b | _ => false end.

Lemma near_b_ok {E : Env} m c R q : in_range (size m) q -> spiral_inside m c R q = Ok (near_b m c R q).
Proof.
  intros Hq. unfold near_b, spiral_inside, position_from_index. rewrite (proj2 (index_in_range_iff _ _)) by exact Hq. reflexivity.
Qed.

Section Exactly.
Context {E : Env} (X : Exact E).

Lemma unmoved_geo m : geo_ok m -> geo_ok (unmoved m).
Proof. intros [A B C D]. constructor; cbn [unmoved resn size len start set_start]; auto. unfold in_range. cbn [fst snd]. lia. Qed.

Lemma unmoved_id m : start m = (0, 0) -> unmoved m = m.
Proof. destruct m. cbn. intros ->. reflexivity. Qed.

Lemma spiral_inside_ok m c R q : geo_ok m -> in_range (size m) q ->
  exists b, spiral_inside m c R q = Ok b /\ (b = true <-> in_circle c R (centre (unmoved m) q)).
Proof.
  intros G Hq. destruct (circle_inside_ok X (unmoved m) c R q (unmoved_geo m G) Hq) as [A B].
  exists (circle_f (unmoved m) c R q). split; [|exact B].
  rewrite <- A. unfold spiral_inside, circle_inside, position_or_uninit, getPosition, unmoved. cbn [len pos resn size start set_start].
  destruct (position_from_index _ _ _ _ _ _); reflexivity.
Qed.

Lemma near_b_iff m c R q : geo_ok m -> in_range (size m) q -> near_b m c R q = true <-> in_circle c R (centre (unmoved m) q).
Proof.
  intros G Hq. destruct (spiral_inside_ok m c R q G Hq) as (b & A & B). rewrite near_b_ok in A by exact Hq. injection A as ->. exact B.
Qed.
End Exactly.

Section Loop.
Context {E : Env}.

(** The cells collected from a walk. *)
Lemma collect_ok m c R ic nr d :
  let border := (d = nr \/ d = (nr - 1) mod 2 ^ 32) in
  forall ps acc, NoDup ps -> NoDup acc -> (forall q, In q acc -> ~ In (offset ic q) ps) ->
  exists l, spiral_collect m c R ic nr d ps acc = Ok l /\ NoDup l /\
    forall q, In q l <-> In q acc \/ (In (offset ic q) ps /\ in_range (size m) q /\ (border -> near_b m c R q = true)).
Proof.
  intros border. induction ps as [|p t IH]; intros acc NP NA DJ; cbn [spiral_collect].
  - exists acc. split; [reflexivity|]. split; [exact NA|]. intros q. split; [auto|intros [H|[[] _]]; auto].
  - inversion NP as [|? ? NP1 NP2]; subst. set (q0 := (fst p + fst ic, snd p + snd ic)).
    assert (O0 : offset ic q0 = p). { unfold offset, q0. destruct p; cbn. f_equal; lia. }
    assert (OI : forall q, offset ic q = p -> q = q0). { intros q <-. unfold q0, offset. destruct q; cbn. f_equal; lia. }
    assert (DJ0 : ~ In q0 acc). { intros C. apply (DJ q0 C). rewrite O0. now left. }
    assert (DJ1 : forall q, In q acc -> ~ In (offset ic q) t). { intros q Hq C. apply (DJ q Hq). now right. }
    assert (DJ2 : forall q, In q (q0 :: acc) -> ~ In (offset ic q) t). { intros q [<-|Hq]; [now rewrite O0|auto]. }
    destruct (index_in_range q0 (size m)) eqn:IR.
    + apply index_in_range_iff in IR.
      destruct ((d =? nr) || (d =? (nr - 1) mod 2 ^ 32)) eqn:BD.
      * assert (HB : border). { unfold border. lia. }
        rewrite (near_b_ok m c R q0 IR). cbn [rbind]. destruct (near_b m c R q0) eqn:Hb.
        -- destruct (IH (q0 :: acc)) as (l & L1 & L2 & L3); auto; [now constructor|]. exists l. split; [exact L1|]. split; [exact L2|].
           intros q. rewrite L3. cbn [In]. split.
           ++ intros [[<-|H]|(A & B & C)]; [right; rewrite O0; tauto|auto|tauto].
           ++ intros [H|([A|A] & B & C)]; [auto|left; left; symmetry; auto|tauto].
        -- destruct (IH acc) as (l & L1 & L2 & L3); auto. exists l. split; [exact L1|]. split; [exact L2|].
           intros q. rewrite L3. cbn [In]. split; [tauto|].
           intros [H|([A|A] & B & C)]; [auto| |tauto]. exfalso. symmetry in A. apply OI in A. subst q. rewrite C in Hb by auto. discriminate.
      * assert (HB : ~ border). { unfold border. lia. }
        destruct (IH (q0 :: acc)) as (l & L1 & L2 & L3); auto; [now constructor|]. exists l. split; [exact L1|]. split; [exact L2|].
        intros q. rewrite L3. cbn [In]. split.
        -- intros [[<-|H]|(A & B & C)]; [right; rewrite O0; tauto|auto|tauto].
        -- intros [H|([A|A] & B & C)]; [auto|left; left; symmetry; auto|tauto].
    + assert (NR : ~ in_range (size m) q0). { intros C. apply index_in_range_iff in C. congruence. }
      destruct (IH acc) as (l & L1 & L2 & L3); auto. exists l. split; [exact L1|]. split; [exact L2|].
      intros q. rewrite L3. cbn [In]. split; [tauto|].
      intros [H|([A|A] & B & C)]; [auto| |tauto]. symmetry in A. apply OI in A. subst q. contradiction.
Qed.

(** The cells of ring d. *)
Definition ring_cells (m : cmap) (c : vec) (R : Q) (ic : idx) (nr d : Z) (q : idx) : Prop :=
  on_ring d (offset ic q) /\ in_range (size m) q /\ (nr - 1 <= d -> near_b m c R q = true).

Lemma generate_ok m c R ic nr d : 0 <= d < nr -> nr < 2 ^ 32 ->
  exists l, generate_ring m c R (Spiral ic nr d []) = Ok (Spiral ic nr (d + 1) l) /\ NoDup l /\
    forall q, In q l <-> ring_cells m c R ic nr (d + 1) q.
Proof.
  intros Hd Hn. unfold generate_ring. cbn [sp_dist sp_center sp_rings sp_points].
  destruct (ring_final (d + 1)) as (ps & -> & P1 & P2); [lia|]. cbn [rbind].
  destruct (collect_ok m c R ic nr (d + 1) ps [] P1) as (l & -> & L1 & L2); [constructor|intros q []|].
  cbn [rbind]. exists l. split; [reflexivity|]. split; [exact L1|]. intros q. rewrite L2, P2. unfold ring_cells. cbn [In].
  rewrite Z.mod_small by lia. split.
  - intros [[]|(A & B & C)]. split; [auto|]. split; [auto|]. intros K. apply C. lia.
  - intros (A & B & C). right. split; [auto|]. split; [auto|]. intros K. apply C. lia.
Qed.

(** The whole loop, in terms of the lists generated. *)
Section Run.
Context (m : cmap) (c : vec) (R : Q) (ic : idx) (nr : Z) (L : Z -> list idx).
Hypothesis HL : forall d, 0 <= d < nr -> generate_ring m c R (Spiral ic nr d []) = Ok (Spiral ic nr (d + 1) (L (d + 1))).

Fixpoint tail_rings (d : Z) (k : nat) : list idx :=
  match k with O => [] | S k => L (d + 1) ++ tail_rings (d + 1) k end.

Lemma spiral_run : forall k d pts fuel, nr = d + Z.of_nat k -> 0 <= d -> (pts <> [] \/ k = 0%nat) ->
  (List.length pts + List.length (tail_rings d k) < fuel)%nat ->
  ((forall d', d < d' < nr -> L d' <> []) ->
     runM spiral_past spiral_cur (spiral_next m c R) fuel (Spiral ic nr d pts) = Ok (pts ++ tail_rings d k)) /\
  ((exists d', d < d' < nr /\ L d' = []) ->
     runM spiral_past spiral_cur (spiral_next m c R) fuel (Spiral ic nr d pts) = Fault OutOfBounds).
Proof.
  induction k as [|k IHk]; intros d.
  - induction pts as [|x t IH]; intros fuel Hn Hd Hp Hf.
    + destruct fuel as [|f]; [lia|]. cbn [runM]. unfold spiral_past. cbn [sp_dist sp_rings sp_points].
      assert (d =? nr = true) as -> by (apply Z.eqb_eq; lia). cbn [andb]. split; [reflexivity|]. intros (d' & A & _). lia.
    + destruct fuel as [|f]; [cbn in Hf; lia|]. cbn [runM]. unfold spiral_past at 1. cbn [sp_dist sp_rings sp_points].
      rewrite andb_false_r. unfold spiral_cur at 1. cbn [sp_points rbind]. split; [|intros (d' & A & _); lia]. intros _.
      assert (NX : spiral_next m c R (Spiral ic nr d (x :: t)) = Ok (Spiral ic nr d t)).
      { unfold spiral_next. cbn [sp_points sp_center sp_rings sp_dist]. destruct t; [|reflexivity].
        unfold spiral_past. cbn [sp_dist sp_rings sp_points]. assert (d =? nr = true) as -> by (apply Z.eqb_eq; lia). reflexivity. }
      rewrite NX. cbn [rbind].
      destruct (IH f) as [IH1 _]; auto; [cbn in *; lia|].
      cbn [tail_rings] in IH1. rewrite IH1; [reflexivity|]. intros d' A. lia.
  - induction pts as [|x t IH]; intros fuel Hn Hd Hp Hf; [destruct Hp as [Hp|Hp]; [contradiction|discriminate]|].
    destruct fuel as [|f]; [cbn in Hf; lia|]. cbn [runM]. unfold spiral_past at 1 3. cbn [sp_dist sp_rings sp_points].
    rewrite andb_false_r. unfold spiral_cur at 1 3. cbn [sp_points rbind].
    destruct t as [|y t].
    + assert (NX : spiral_next m c R (Spiral ic nr d [x]) = Ok (Spiral ic nr (d + 1) (L (d + 1)))).
      { unfold spiral_next. cbn [sp_points sp_center sp_rings sp_dist].
        unfold spiral_past. cbn [sp_dist sp_rings sp_points]. assert (d =? nr = false) as -> by (apply Z.eqb_neq; lia).
        cbn [andb]. apply HL. lia. }
      rewrite NX. cbn [rbind].
      assert (LD : L (d + 1) = [] \/ L (d + 1) <> []) by (destruct (L (d + 1)); [left|right]; congruence). destruct LD as [LE|LN].
      * destruct k as [|k].
        -- (* the last ring is empty *)
           split; [|intros (d' & A & _); lia]. intros _.
           destruct (IHk (d + 1) (L (d + 1)) f) as [IH1 _]; auto; try lia.
           { cbn [tail_rings List.length] in *. rewrite !app_length in Hf. lia. }
           rewrite IH1 by (intros d' A; lia). reflexivity.
        -- split.
           ++ intros NE. exfalso. apply (NE (d + 1)); auto. lia.
           ++ intros _. rewrite LE. destruct f as [|f]; [cbn [List.length] in Hf; lia|]. cbn [runM].
              unfold spiral_past at 1. cbn [sp_dist sp_rings sp_points]. assert (d + 1 =? nr = false) as -> by (apply Z.eqb_neq; lia).
              reflexivity.
      * destruct (IHk (d + 1) (L (d + 1)) f) as [IH1 IH2]; auto; try lia.
        { cbn [tail_rings List.length] in *. rewrite !app_length in Hf. lia. }
        split.
        -- intros NE. rewrite IH1; [reflexivity|]. intros d' A. apply NE. lia.
        -- intros (d' & A & B). rewrite IH2; [reflexivity|]. exists d'. split; [|exact B].
           assert (d' <> d + 1) by congruence. lia.
    + assert (NX : spiral_next m c R (Spiral ic nr d (x :: y :: t)) = Ok (Spiral ic nr d (y :: t))) by reflexivity.
      rewrite NX. cbn [rbind]. destruct (IH f) as [IH1 IH2]; auto; [left; discriminate|cbn [List.length] in *; lia|].
      split.
      * intros NE. rewrite IH1 by auto. reflexivity.
      * intros EX. rewrite IH2 by auto. reflexivity.
Qed.
End Run.

Lemma ring_no_iff ic q d : 0 <= d -> ring_no ic q = d <-> on_ring d (offset ic q).
Proof. intros Hd. change (ring_no ic q) with (inorm (fst q - fst ic) (snd q - snd ic)). now apply inorm_iff. Qed.

(** Moving a point by less than a cell. *)
Lemma disc a b f g rho : (0 <= rho)%Q -> (a * a + b * b <= rho * rho)%Q ->
  (-(1#2) <= f /\ f <= 1#2)%Q -> (-(1#2) <= g /\ g <= 1#2)%Q ->
  ((a + f) * (a + f) + (b + g) * (b + g) <= (rho + (3#4)) * (rho + (3#4)))%Q.
Proof.
  intros HR HA [F1 F2] [G1 G2].
  assert (FG : (f * f + g * g <= 1#2)%Q) by nra.
  assert (C : ((a * f + b * g) * (a * f + b * g) <= (a * a + b * b) * (f * f + g * g))%Q).
  { assert (0 <= (a * g - b * f) * (a * g - b * f))%Q by apply square_nonneg. nra. }
  assert (N1 : (0 <= f * f + g * g)%Q) by (pose proof (square_nonneg f); pose proof (square_nonneg g); lra).
  assert (C2 : ((a * a + b * b) * (f * f + g * g) <= rho * rho * (1#2))%Q).
  { assert (0 <= rho * rho)%Q by apply square_nonneg.
    apply Qle_trans with (rho * rho * (f * f + g * g))%Q; [apply Qmult_le_compat_r; auto|].
    rewrite (Qmult_comm (rho * rho)), (Qmult_comm (rho * rho)). apply Qmult_le_compat_r; auto. }
  assert (C3 : (a * f + b * g <= (3#4) * rho)%Q). { apply sq_le; [lra|]. nra. }
  lra.
Qed.

Lemma unmoved_centre m i : geo_ok m -> start m = (0, 0) -> in_range (size m) i -> world_index m i = i.
Proof.
  intros G S [A B]. unfold world_index. rewrite S. cbn [fst snd]. rewrite !Z.sub_0_r, !Z.mod_small by auto. now destruct i.
Qed.

(** Position of a cell relative to the centre of the circle, in cells. *)
Lemma centre_offset m ic i c : geo_ok m -> start m = (0, 0) -> in_range (size m) ic -> in_range (size m) i ->
  contains (resn m) (centre m ic) c ->
  exists f g, (-(1#2) <= f /\ f <= 1#2)%Q /\ (-(1#2) <= g /\ g <= 1#2)%Q /\
   (fst (centre m i) - fst c == - resn m * (inject_Z (fst i - fst ic) + f))%Q /\
   (snd (centre m i) - snd c == - resn m * (inject_Z (snd i - snd ic) + g))%Q.
Proof.
  intros G S Hc Hi [[C1 C2] [C3 C4]]. pose proof (g_res _ G) as Hr.
  exists ((fst c - fst (centre m ic)) / resn m)%Q, ((snd c - snd (centre m ic)) / resn m)%Q.
  assert (H2 : (resn m / 2 == (1#2) * resn m)%Q) by field. rewrite H2 in C1, C2, C3, C4. clear H2.
  split; [split; [apply Qle_shift_div_l; [lra|]; set (x := fst (centre m ic)) in *; lra|apply Qle_shift_div_r; [lra|]; lra]|].
  split; [split; [apply Qle_shift_div_l; lra|apply Qle_shift_div_r; lra]|].
  unfold centre in *. cbn [fst snd] in *. rewrite !unmoved_centre by auto. unfold centre1, Z.sub. rewrite !inject_Z_plus, !inject_Z_opp.
  split; field; lra.
Qed.

Lemma in_circle_cells m ic i c R : geo_ok m -> start m = (0, 0) -> in_range (size m) ic -> in_range (size m) i ->
  contains (resn m) (centre m ic) c -> (0 <= R)%Q ->
  let o := offset ic i in let rho := (R / resn m)%Q in
  (in_circle c R (centre m i) -> (inject_Z (fst o * fst o + snd o * snd o) <= (rho + (3#4)) * (rho + (3#4)))%Q) /\
  ((inject_Z (fst o * fst o + snd o * snd o) <= rho * rho)%Q -> in_circle c (R + (3#4) * resn m) (centre m i)).
Proof.
  intros G S Hc Hi C HR o rho. pose proof (g_res _ G) as Hr.
  destruct (centre_offset m ic i c G S Hc Hi C) as (f & g & F & GG & E1 & E2).
  assert (P : (0 <= rho)%Q) by (unfold rho; apply Qle_shift_div_l; lra).
  assert (ER : (R == rho * resn m)%Q) by (unfold rho; field; lra).
  unfold o, offset, in_circle. cbn [fst snd]. rewrite E1, E2, inject_Z_plus, !inject_Z_mult.
  set (a := inject_Z (fst i - fst ic)) in *. set (b := inject_Z (snd i - snd ic)) in *. clearbody a b rho.
  assert (EX : (- resn m * (a + f) * (- resn m * (a + f)) + - resn m * (b + g) * (- resn m * (b + g)) == (resn m * resn m) * ((a + f) * (a + f) + (b + g) * (b + g)))%Q) by ring.
  assert (R2 : (0 < resn m * resn m)%Q) by (apply Qmult_lt_0_compat; auto).
  rewrite !EX. split; intros H.
  - assert (D : ((a + f) * (a + f) + (b + g) * (b + g) <= rho * rho)%Q).
    { apply (Qmult_le_l _ _ _ R2). rewrite ER in H. eapply Qle_trans; [exact H|]. apply Qle_lteq. right. ring. }
    pose proof (disc (a + f) (b + g) (- f) (- g) rho P D) as K.
    assert (a * a + b * b == (a + f + - f) * (a + f + - f) + (b + g + - g) * (b + g + - g))%Q as -> by ring.
    apply K; lra.
  - pose proof (disc a b f g rho P H F GG) as K.
    apply (Qmult_le_l _ _ _ R2) in K. eapply Qle_trans; [exact K|]. apply Qle_lteq. right. rewrite ER. ring.
Qed.

Lemma tail_In L : forall k d q, In q (tail_rings L d k) <-> exists d', d < d' <= d + Z.of_nat k /\ In q (L d').
Proof.
  induction k as [|k IH]; intros d q; cbn [tail_rings].
  - split; [intros []|intros (d' & A & _); lia].
  - rewrite in_app_iff, IH. split.
    + intros [H|(d' & A & B)]; [exists (d + 1); split; [lia|auto]|exists d'; split; [lia|auto]].
    + intros (d' & A & B). destruct (Z.eq_dec d' (d + 1)) as [->|NE]; [now left|right]. exists d'. split; [lia|auto].
Qed.

Lemma NoDup_app {A} (l l' : list A) : NoDup l -> NoDup l' -> (forall x, In x l -> ~ In x l') -> NoDup (l ++ l').
Proof.
  intros H H' D. induction H as [|x l N H IH]; [exact H'|]. cbn. constructor.
  - rewrite in_app_iff. intros [C|C]; [auto|]. apply (D x); [now left|auto].
  - apply IH. intros y Hy. apply D. now right.
Qed.

Lemma tail_sorted (f : idx -> Z) L : forall k d,
  (forall d', d < d' <= d + Z.of_nat k -> NoDup (L d') /\ forall q, In q (L d') -> f q = d') ->
  NoDup (tail_rings L d k) /\ StronglySorted (fun i j => f i <= f j) (tail_rings L d k).
Proof.
  induction k as [|k IH]; intros d H; cbn [tail_rings]; [split; constructor|].
  destruct (IH (d + 1)) as [I1 I2]; [intros d' Hd'; apply H; lia|].
  destruct (H (d + 1)) as [H1 H2]; [lia|].
  assert (T : forall q, In q (tail_rings L (d + 1) k) -> d + 1 < f q).
  { intros q Hq. apply tail_In in Hq as (d' & A & B). destruct (H d') as [_ H3]; [lia|]. rewrite (H3 q B). lia. }
  split.
  - apply NoDup_app; auto. intros q Hq C. apply T in C. rewrite (H2 q Hq) in C. lia.
  - assert (G : forall l, (forall q, In q l -> f q = d + 1) -> StronglySorted (fun i j => f i <= f j) (l ++ tail_rings L (d + 1) k)).
    { induction l as [|x l IHl]; intros Hl; [exact I2|]. cbn. constructor.
      - apply IHl. intros q Hq. apply Hl. now right.
      - apply Forall_forall. intros q Hq. rewrite (Hl x) by now left. apply in_app_iff in Hq as [Hq|Hq].
        + rewrite (Hl q) by (now right). lia.
        + apply T in Hq. lia. }
    apply G, H2.
Qed.

(** Any map, any arithmetic: rings are counted in the buffer, the computed test decides in the two outer rings. *)
Lemma spiral_loop m c R ic : snd (getIndex m c) = ic -> in_range (size m) ic ->
  let nr := Qceiling (fdiv R (resn m)) in 0 <= nr < 2 ^ 32 ->
  let filled d := exists q, in_range (size m) q /\ ring_no ic q = d /\ (d = nr - 1 -> near_b m c R q = true) in
  exists N,
  ((forall d, 1 <= d < nr -> filled d) ->
   exists vs, (forall fuel, (N <= fuel)%nat -> spiral_visits m c R fuel = Ok vs) /\ NoDup vs /\
     (forall i, In i vs <-> i = ic \/ (in_range (size m) i /\ 1 <= ring_no ic i <= nr /\ (nr - 1 <= ring_no ic i -> near_b m c R i = true))) /\
     StronglySorted (fun i j => ring_no ic i <= ring_no ic j) vs) /\
  ((exists d, 1 <= d < nr /\ ~ filled d) ->
   forall fuel, (N <= fuel)%nat -> spiral_visits m c R fuel = Fault OutOfBounds).
Proof.
  intros HI Hic nr [N0 Hnr] filled.
  assert (NW : spiral_new m c R = Ok (Spiral ic nr 0 [ic])).
  { unfold spiral_new. rewrite HI. fold nr. assert ((nr <? 0) || (2 ^ 32 <=? nr) = false) as ->.
    { apply orb_false_iff. split; [apply Z.ltb_ge; lia|apply Z.leb_gt; lia]. }
    assert (index_in_range ic (size m) = true) as -> by now apply index_in_range_iff. reflexivity. }
  set (L := fun d => match generate_ring m c R (Spiral ic nr (d - 1) []) with Ok it => sp_points it | _ => [] end).
  assert (HL : forall d, 0 <= d < nr -> generate_ring m c R (Spiral ic nr d []) = Ok (Spiral ic nr (d + 1) (L (d + 1))) /\
     NoDup (L (d + 1)) /\ forall q, In q (L (d + 1)) <-> ring_cells m c R ic nr (d + 1) q).
  { intros d Hd. destruct (generate_ok m c R ic nr d Hd Hnr) as (l & A & B & D).
    assert (EL : L (d + 1) = l). { unfold L. replace (d + 1 - 1) with d by lia. now rewrite A. }
    rewrite EL. auto. }
  assert (HL1 : forall d, 0 <= d < nr -> generate_ring m c R (Spiral ic nr d []) = Ok (Spiral ic nr (d + 1) (L (d + 1)))).
  { intros d Hd. now apply HL. }
  assert (HL2 : forall d, 1 <= d <= nr -> NoDup (L d) /\ forall q, In q (L d) <-> ring_cells m c R ic nr d q).
  { intros d Hd. destruct (HL (d - 1)) as (_ & A & B); [lia|]. replace (d - 1 + 1) with d in A, B by lia. auto. }
  assert (FL : forall d, 1 <= d < nr -> (filled d <-> L d <> [])).
  { intros d Hd. destruct (HL2 d) as [_ HQ]; [lia|]. split.
    - intros (q & A & B & D) LE. assert (In q (L d)) as K; [|now rewrite LE in K].
      apply HQ. split; [apply ring_no_iff; [lia|auto]|]. split; [exact A|]. intros K. apply D. lia.
    - intros NE. destruct (L d) as [|q l] eqn:LE; [contradiction|]. destruct (HQ q) as [HQ1 _].
      destruct HQ1 as (A & B & D); [now left|]. exists q. split; [exact B|]. split; [apply ring_no_iff; [lia|auto]|].
      intros K. apply D. lia. }
  set (T := tail_rings L 0 (Z.to_nat nr)). set (N := (2 + List.length T)%nat).
  exists N.
  assert (RUN : forall fuel, (N <= fuel)%nat -> 
     ((forall d', 0 < d' < nr -> L d' <> []) -> spiral_visits m c R fuel = Ok (ic :: T)) /\
     ((exists d', 0 < d' < nr /\ L d' = []) -> spiral_visits m c R fuel = Fault OutOfBounds)).
  { intros fuel Hf. unfold spiral_visits. rewrite NW. cbn [rbind].
    destruct (spiral_run m c R ic nr L HL1 (Z.to_nat nr) 0 [ic] fuel) as [A B]; try lia.
    - left. discriminate.
    - unfold N, T in Hf. cbn [List.length]. lia.
    - split; [exact A|exact B]. }
  split.
  - intros FI. exists (ic :: T). split.
    { intros fuel Hf. apply RUN; auto. intros d Hd. apply FL; [lia|]. apply FI. lia. }
    assert (RIC : ring_no ic ic = 0). { unfold ring_no. rewrite !Z.sub_diag. reflexivity. }
    assert (HT : forall q, In q T <-> exists d, 1 <= d <= nr /\ ring_cells m c R ic nr d q).
    { intros q. unfold T. rewrite tail_In. split.
      - intros (d & A & B). exists d. split; [lia|]. apply HL2; [lia|auto].
      - intros (d & A & B). exists d. split; [lia|]. apply HL2; [lia|auto]. }
    destruct (tail_sorted (ring_no ic) L (Z.to_nat nr) 0) as [T1 T2].
    { intros d Hd. destruct (HL2 d) as [A B]; [lia|]. split; [exact A|]. intros q Hq. apply B in Hq as [Hq _]. apply ring_no_iff; [lia|auto]. }
    fold T in T1, T2.
    assert (TP : forall q, In q T -> 1 <= ring_no ic q).
    { intros q Hq. apply HT in Hq as (d & A & (B & _)). apply ring_no_iff in B; lia. }
    split; [|split].
    + constructor; [|exact T1]. intros K. apply TP in K. lia.
    + intros i. cbn [In]. rewrite HT. split.
      * intros [<-|(d & A & B1 & B2 & B3)]; [now left|right]. apply ring_no_iff in B1; [|lia]. subst d. auto.
      * intros [->|(A & B & D)]; [now left|right]. exists (ring_no ic i). split; [exact B|]. split; [apply ring_no_iff; [lia|auto]|auto].
    + constructor; [exact T2|]. apply Forall_forall. intros q Hq. apply TP in Hq. lia.
  - intros (d & Hd & NF) fuel Hf. apply RUN; auto. exists d. split; [lia|].
    destruct (L d) as [|q l] eqn:LE; [reflexivity|exfalso]. apply NF, FL; [lia|]. rewrite LE. discriminate.
Qed.

End Loop.

Section Spiral.
Context {E : Env} (X : Exact E).

(** Any map: rings are counted in the buffer, the radius is checked, in the two outer rings, as if the map had not moved. *)
Lemma spiral_any m c R ic : geo_ok m -> in_range (size m) ic -> contains (resn m) (centre m ic) c ->
  (0 <= R)%Q -> let nr := Qceiling (R / resn m) in nr < 2 ^ 32 ->
  let filled d := exists q, in_range (size m) q /\ ring_no ic q = d /\ (d = nr - 1 -> in_circle c R (centre (unmoved m) q)) in
  exists N,
  ((forall d, 1 <= d < nr -> filled d) ->
   exists vs, (forall fuel, (N <= fuel)%nat -> spiral_visits m c R fuel = Ok vs) /\ NoDup vs /\
     (forall i, In i vs <-> i = ic \/ (in_range (size m) i /\ 1 <= ring_no ic i <= nr /\ (nr - 1 <= ring_no ic i -> in_circle c R (centre (unmoved m) i)))) /\
     StronglySorted (fun i j => ring_no ic i <= ring_no ic j) vs) /\
  ((exists d, 1 <= d < nr /\ ~ filled d) ->
   forall fuel, (N <= fuel)%nat -> spiral_visits m c R fuel = Fault OutOfBounds).
Proof.
  intros G Hic C HR nr Hnr filled. pose proof (g_res _ G) as Hr.
  assert (RP : (0 <= R / resn m)%Q) by (apply Qle_shift_div_l; lra).
  assert (N0 : 0 <= nr). { unfold nr. change 0 with (Qceiling 0). now apply Qceiling_resp_le. }
  assert (NE : Qceiling (fdiv R (resn m)) = nr). { unfold nr. apply Qceiling_comp. now exqX X. }
  destruct (spiral_loop m c R ic) as (N & A & B); auto.
  { now rewrite (getIndex_covering X m ic c G Hic C). } { rewrite NE. lia. }
  rewrite NE in A, B. exists N.
  assert (FI : forall d, filled d <-> exists q, in_range (size m) q /\ ring_no ic q = d /\ (d = nr - 1 -> near_b m c R q = true)).
  { intros d. split; intros (q & Q1 & Q2 & Q3); exists q; (split; [exact Q1|]; split; [exact Q2|]; intros K; apply (near_b_iff X m c R q G Q1); auto). }
  split.
  - intros F. destruct A as (vs & V1 & V2 & V3 & V4). { intros d Hd. now apply FI, F. }
    exists vs. split; [exact V1|]. split; [exact V2|]. split; [|exact V4]. intros i. rewrite V3. split.
    + intros [K|(K1 & K2 & K3)]; [now left|right]. split; [exact K1|]. split; [exact K2|]. intros K. apply (near_b_iff X m c R i G K1); auto.
    + intros [K|(K1 & K2 & K3)]; [now left|right]. split; [exact K1|]. split; [exact K2|]. intros K. apply (near_b_iff X m c R i G K1); auto.
  - intros (d & Hd & NF). apply B. exists d. split; [exact Hd|]. intros K. now apply NF, FI.
Qed.

Lemma spiral_final m c R ic : geo_ok m -> start m = (0, 0) -> in_range (size m) ic -> contains (resn m) (centre m ic) c ->
  (0 <= R)%Q -> let nr := Qceiling (R / resn m) in nr < 2 ^ 32 ->
  let filled d := exists q, in_range (size m) q /\ ring_no ic q = d /\ (d = nr - 1 -> in_circle c R (centre m q)) in
  exists N,
  ((forall d, 1 <= d < nr -> filled d) ->
   exists vs, (forall fuel, (N <= fuel)%nat -> spiral_visits m c R fuel = Ok vs) /\ NoDup vs /\
     (forall i, in_range (size m) i -> in_circle c R (centre m i) -> In i vs) /\
     (forall i, In i vs -> in_range (size m) i /\ in_circle c (R + (3#4) * resn m) (centre m i)) /\
     StronglySorted (fun i j => ring_no ic i <= ring_no ic j) vs) /\
  ((exists d, 1 <= d < nr /\ ~ filled d) ->
   forall fuel, (N <= fuel)%nat -> spiral_visits m c R fuel = Fault OutOfBounds).
Proof.
  intros G S Hic C HR nr Hnr filled. pose proof (g_res _ G) as Hr.
  pose proof (spiral_any m c R ic G Hic C HR Hnr) as SA. cbv zeta in SA. rewrite (unmoved_id m S) in SA. fold nr in SA.
  destruct SA as (N & SA1 & SA2). exists N. split; [|exact SA2].
  intros FI. destruct (SA1 FI) as (vs & V1 & V2 & V3 & V4). exists vs. split; [exact V1|]. split; [exact V2|].
  assert (RP : (0 <= R / resn m)%Q) by (apply Qle_shift_div_l; lra).
  assert (N0 : 0 <= nr). { unfold nr. change 0 with (Qceiling 0). now apply Qceiling_resp_le. }
  assert (CL : (R / resn m <= inject_Z nr)%Q) by apply Qle_ceiling.
  split; [|split; [|exact V4]].
    + intros i Hi Hc. apply V3. destruct (idx_eqb i ic) eqn:EI; [apply idx_eqb_eq in EI; left; auto|right].
      assert (NI : i <> ic). { intros K. apply idx_eqb_eq in K. congruence. }
      set (d := ring_no ic i).
      assert (D0 : 0 <= d) by apply Z.sqrt_nonneg.
      assert (OR : on_ring d (offset ic i)) by (apply ring_no_iff; auto).
      destruct (in_circle_cells m ic i c R G S Hic Hi C HR) as [IC _]. specialize (IC Hc).
      assert (D1 : d <> 0).
      { intros K. rewrite K in OR. unfold on_ring, offset in OR. cbn [fst snd] in OR. apply NI.
        destruct i as [i0 i1], ic as [c0 c1]; cbn [fst snd] in *. clear - OR. set (a := i0 - c0) in *. set (b := i1 - c1) in *.
        assert (a = 0 /\ b = 0) as [A B] by (clearbody a b; split; nia). subst a b. f_equal; lia. }
      split; [exact Hi|]. split; [|auto].
      split; [lia|]. destruct (Z_le_gt_dec d nr) as [K|K]; [exact K|exfalso].
      set (o := offset ic i) in *. destruct OR as [O1 _].
      assert (O2 : (inject_Z ((nr + 1) * (nr + 1)) <= inject_Z (fst o * fst o + snd o * snd o))%Q) by (rewrite <- Zle_Qle; nia).
      rewrite inject_Z_mult, inject_Z_plus in O2. change (inject_Z 1) with 1%Q in O2.
      assert (0 <= inject_Z nr)%Q by (change 0%Q with (inject_Z 0); rewrite <- Zle_Qle; lia).
      set (rho := (R / resn m)%Q) in *. clearbody rho. nra.
    + intros i Hv. apply V3 in Hv as [->|(B2 & A & B3)].
      * split; [exact Hic|]. destruct (in_circle_cells m ic ic c R G S Hic Hic C HR) as [_ IC]. apply IC.
        unfold offset. cbn [fst snd]. rewrite !Z.sub_diag. change (inject_Z (0 * 0 + 0 * 0)) with 0%Q. apply square_nonneg.
      * set (d := ring_no ic i) in *. assert (B1 : on_ring d (offset ic i)) by (apply ring_no_iff; [lia|auto]). split; [exact B2|].
        destruct (Z_le_gt_dec (nr - 1) d) as [K|K].
        -- specialize (B3 K). unfold in_circle in *. eapply Qle_trans; [exact B3|].
           assert (0 <= R * resn m)%Q by (apply Qmult_le_0_compat; lra). assert (0 <= resn m * resn m)%Q by (apply Qmult_le_0_compat; lra). lra.
        -- destruct (in_circle_cells m ic i c R G S Hic B2 C HR) as [_ IC]. apply IC. destruct B1 as [_ B1].
           set (o := offset ic i) in *.
           assert (O2 : (inject_Z (fst o * fst o + snd o * snd o) <= inject_Z ((nr - 1) * (nr - 1)))%Q) by (rewrite <- Zle_Qle; nia).
           eapply Qle_trans; [exact O2|]. rewrite inject_Z_mult.
           assert (LT : (inject_Z (nr - 1) < R / resn m)%Q) by apply Qceiling_lt.
           assert (0 <= inject_Z (nr - 1))%Q by (change 0%Q with (inject_Z 0); rewrite <- Zle_Qle; lia).
           set (rho := (R / resn m)%Q) in *. clearbody rho. nra.
Qed.
End Spiral.
