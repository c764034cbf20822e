(** Whole calls of Inflate and Deflate. *)
From Coq Require Import ZArith QArith Qround String List Bool Permutation Lia Lqa.
From Verif Require Import Base Mat GridIter CostMap Inflation Spec InflationSpec BaseLemmas GeoLemmas CoreProofs CoreProofs2 CoreFinal MoveProofs AddDataProofs InflateProofs.
Import ListNotations.
Open Scope Z_scope.

Section Calls.
Context {E : Env} (F : fenv) (P : pqueue) (PS : pq_spec P).

(** ** Objects *)

Definition qgood (q : pq P) : Prop := pq_wf PS q.

Lemma enqueue_wf c ls ld n s st st' : enqueue P c ls ld n s st = Ret tt st' -> pq_wf PS (is_queue st) -> pq_wf PS (is_queue st').
Proof.
  unfold enqueue. destruct (mget (is_seen st) (fst n) (snd n)) as [b|]; [|discriminate].
  destruct (b =? 0); [|intros H; injection H as <-; auto].
  destruct (lookup c (c_dist c) n s) as [d| |]; try discriminate.
  destruct (Qlt_bool _ d); [intros H; injection H as <-; auto|].
  destruct (lookup c (c_cost c) n s) as [v| |], (at_ (is_map st) ls n) as [old| |]; try discriminate.
  destruct (at_set ld n (combine old v) (is_map st)) as [[] m'| |]; try discriminate.
  destruct (mset (is_seen st) (fst n) (snd n) 1); try discriminate. intros H; injection H as <-. cbn. apply pq_wf_push.
Qed.

Lemma mfor_wf {A} (body : A -> M (istate P) unit) : (forall a st st', body a st = Ret tt st' -> pq_wf PS (is_queue st) -> pq_wf PS (is_queue st')) ->
  forall l st st', mfor l body st = Ret tt st' -> pq_wf PS (is_queue st) -> pq_wf PS (is_queue st').
Proof.
  intros HB. induction l as [|a l IH]; intros st st' H W; cbn in H; [injection H as <-; auto|].
  destruct (body a st) as [[] st1| |] eqn:B; try discriminate. eapply IH; eauto.
Qed.

Lemma scan_wf c ls ld rows cols st st' : scan P c ls ld rows cols st = Ret tt st' -> pq_wf PS (is_queue st) -> pq_wf PS (is_queue st').
Proof.
  unfold scan. apply mfor_wf. intros j st1 st2. apply mfor_wf. intros i st3 st4.
  destruct (at_ (is_map st3) ls (i, j)) as [v| |]; try discriminate.
  destruct (v =? LETHAL_OBSTACLE); [apply enqueue_wf|intros H; injection H as <-; auto].
Qed.

Lemma spread_wf c ls ld sz q st st' : spread P c ls ld sz q st = Ret tt st' -> pq_wf PS (is_queue st) -> pq_wf PS (is_queue st').
Proof.
  unfold spread, bind.
  assert (T : forall (b : bool) n s st st', (if b then enqueue P c ls ld n s else ret tt) st = Ret tt st' -> pq_wf PS (is_queue st) -> pq_wf PS (is_queue st')).
  { intros [] n s st1 st2; [apply enqueue_wf|intros H; injection H as <-; auto]. }
  destruct ((if 0 <? fst (q_at q) then enqueue P c ls ld (fst (q_at q) - 1, snd (q_at q)) (q_src q) else ret tt) st) as [[] st1| |] eqn:E1; try discriminate.
  destruct ((if 0 <? snd (q_at q) then enqueue P c ls ld (fst (q_at q), snd (q_at q) - 1) (q_src q) else ret tt) st1) as [[] st2| |] eqn:E2; try discriminate.
  destruct ((if fst (q_at q) <? fst sz - 1 then enqueue P c ls ld (fst (q_at q) + 1, snd (q_at q)) (q_src q) else ret tt) st2) as [[] st3| |] eqn:E3; try discriminate.
  intros E4 W. eapply T; [exact E4|]. eapply T; [exact E3|]. eapply T; [exact E2|]. eapply T; [exact E1|exact W].
Qed.

Lemma brushfire_wf c ls ld sz : forall f st st', brushfire P c ls ld sz f st = Ret tt st' -> pq_wf PS (is_queue st) ->
  pq_wf PS (is_queue st') /\ pq_items PS (is_queue st') = [].
Proof.
  induction f as [|f IH]; intros st st' H W; cbn [brushfire] in H; destruct (pq_pop P (is_queue st)) as [[q rest]|] eqn:PO; try discriminate.
  1,3: injection H as <-; split; [auto|]; eapply pq_pop_none; eauto.
  destruct (pq_pop_some _ PS _ _ _ W PO) as [W1 _]. unfold bind in H.
  destruct (spread P c ls ld sz q _) as [[] st1| |] eqn:S1; try discriminate.
  eapply IH; [exact H|]. eapply spread_wf; [exact S1|exact W1].
Qed.

(** The tables an object holds. *)
Definition holds (o : inflater P) (x : option (Z * Q * (Q -> Z))) : Prop :=
  pq_wf PS (if_queue o) /\ pq_items PS (if_queue o) = [] /\
  match x with
  | None => o = new_inflater P
  | Some (r, q, comp) => 0 <= r < 2 ^ 32 - 2 /\
      if_cache o = Cache r (r + 2) (hyp F) (cost_table F q comp)
  end.

Lemma cell_radius_nonneg rad m r : cell_radius rad m = Ok r -> 0 <= r.
Proof.
  unfold cell_radius. destruct (Qeq_bool _ _).
  - destruct (Qlt_bool _ _); [discriminate|]. intros H; injection H as <-. lia.
  - destruct (_ <=? _); [discriminate|]. intros H; injection H as <-. lia.
Qed.

Lemma cell_radius_resn rad m m' : resn m' = resn m -> cell_radius rad m' = cell_radius rad m.
Proof. unfold cell_radius. now intros ->. Qed.

(** The tables of a call. *)
Lemma tables o x r q comp : holds o x -> 0 <= r < 2 ^ 32 - 2 ->
  (if r =? c_rad (if_cache o) then Ok (if_cache o) else compute_caches F r (f32 F q) comp) =
  Ok (Cache r (r + 2) (hyp F) (cost_table F (fst (in_force x r q comp)) (snd (in_force x r q comp)))).
Proof.
  intros (_ & _ & H) Hr.
  assert (CC : compute_caches F r (f32 F q) comp = Ok (Cache r (r + 2) (hyp F) (cost_table F q comp))).
  { unfold compute_caches. rewrite !Z.mod_small by lia. assert ((r + 1 <? r + 2) = true) as -> by lia. reflexivity. }
  destruct x as [[[r0 q0] comp0]|].
  - destruct H as [H1 ->]. cbn [c_rad in_force]. rewrite (Z.eqb_sym r0 r). destruct (Z.eqb_spec r r0) as [->|N]; [reflexivity|]. exact CC.
  - subst o. cbn [new_inflater if_cache c_rad in_force fst snd]. assert ((r =? 2 ^ 32 - 1) = false) as -> by lia. exact CC.
Qed.

Lemma used_holds o x : used F P o x -> holds o x.
Proof.
  induction 1 as [|o x ls ld rad comp m o' m' r U IH CR Hr H].
  - split; [apply pq_wf_empty|]. split; [apply pq_items_empty|reflexivity].
  - pose proof (cell_radius_nonneg _ _ _ CR) as R0. destruct IH as (W & Q0 & C).
    assert (IH : holds o x) by (split; auto).
    unfold inflate in H. destruct (get m ls) as [src| |]; try discriminate.
    destruct (add ld src m) as [[] m1| |] eqn:A; try discriminate.
    assert (RS : resn m1 = resn m).
    { unfold add in A. destruct (negb _); [discriminate|]. destruct (exists_layer m ld); injection A as <-; reflexivity. }
    rewrite (cell_radius_resn rad m m1 RS), CR in H. cbn [rbind] in H.
    rewrite (tables o x r (resn m1) comp IH) in H by lia.
    match type of H with match ?b with _ => _ end = _ => destruct b as [[] st| |] eqn:B; try discriminate end.
    injection H as <- <-. unfold bind in B.
    match type of B with match ?b with _ => _ end = _ => destruct b as [[] st1| |] eqn:B1; try discriminate end.
    apply scan_wf in B1; [|exact W]. apply brushfire_wf in B; [|exact B1]. destruct B as [B2 B3].
    split; [exact B2|]. split; [exact B3|]. split; [lia|]. rewrite RS. reflexivity.
Qed.

(** ** Calls *)

Lemma combine_inflated old cost : combine old cost = inflated old cost.
Proof.
  unfold combine, inflated, NO_INFORMATION, INSCRIBED_OBSTACLE, unknown, inscribed.
  destruct (Z.eqb_spec old 255), (Z.eq_dec old 255), (Z.leb_spec 253 cost), (Z_le_gt_dec 253 cost); cbn [andb]; lia.
Qed.

Lemma get_ext m m' l : reg_ok' m -> reg_ok' m' -> size m' = size m -> exists_layer m' l = exists_layer m l ->
  (forall i, at_ m' l i = at_ m l i) -> get m' l = get m l.
Proof.
  intros (R & _) (R' & _) S X A. unfold get. unfold exists_layer, amem in X.
  destruct (aget (data m') l) as [d'|] eqn:D', (aget (data m) l) as [d|] eqn:D; try discriminate; [|reflexivity].
  destruct (r_mat _ R _ _ D) as (W & R1 & R2). destruct (r_mat _ R' _ _ D') as (W' & R1' & R2').
  f_equal. apply mat_ext; auto; try congruence. intros i j _ _. specialize (A (i, j)). unfold at_ in A. rewrite D, D' in A. cbn [fst snd] in A.
  destruct (mget d' i j), (mget d i j); cbn in A; congruence.
Qed.

(** What a call does, by the obstacle each cell was reached from. *)
Record outcome (r : Z) (cost : Z -> Z -> Z) (ls ld : string) (m m' : cmap) (hit : idx -> idx -> Prop) : Prop :=
  { o_meta : same_meta m m';
    o_reg : reg_ok' m';
    o_layers : layers m' = if exists_layer m ld then layers m else layers m ++ [ld];
    o_exists : forall l, exists_layer m' l = true <-> exists_layer m l = true \/ l = ld;
    o_others : forall l, l <> ld -> get m' l = get m l;
    o_dec : forall i, (exists s, hit i s) \/ (forall s, ~ hit i s);
    o_hit : forall i s, hit i s -> in_range (size m) i /\ value_at m ls s lethal /\ d2 i s <= r * r;
    o_one : forall i s s', hit i s -> hit i s' -> s = s';
    o_value : forall i s v, hit i s -> value_at m ls i v -> value_at m' ld i (inflated v (at_offset cost i s));
    o_keep : forall i v, (forall s, ~ hit i s) -> value_at m ls i v -> value_at m' ld i v;
    o_spread : forall i s n, hit i s -> in_range (size m) n -> d1 n i = 1 -> d2 n s <= r * r -> exists s', hit n s';
    o_start : forall o, value_at m ls o lethal -> exists s, hit o s;
    o_near : forall i s o, hit i s -> value_at m ls o lethal -> d1 i o <= r -> d2 i s <= d1 i o * d1 i o }.

Lemma value_range m l i v : reg_ok m -> value_at m l i v -> in_range (size m) i.
Proof.
  intros R (d & D & G). destruct (r_mat _ R _ _ D) as (_ & R1 & R2). apply mget_in in G. rewrite R1, R2 in G. exact G.
Qed.

(** A call that works with some cost table. *)
Lemma inflate_tables o ls ld rad comp m r cost : pq_wf PS (if_queue o) -> pq_items PS (if_queue o) = [] -> reg_ok' m -> has_layer m ls ->
  cell_radius rad m = Ok r -> dist_ok (hyp F) r ->
  (if r =? c_rad (if_cache o) then Ok (if_cache o) else compute_caches F r (f32 F (resn m)) comp) = Ok (Cache r (r + 2) (hyp F) cost) ->
  exists o' m' hit, inflate F P ls ld rad comp o m = Ret o' m' /\ outcome r cost ls ld m m' hit.
Proof.
  intros W Q0 R Hls CR HD TB. pose proof (cell_radius_nonneg _ _ _ CR) as R0.
  destruct Hls as [src Hsrc]. destruct (r_mat _ (proj1 R) _ _ Hsrc) as (Ws & S1 & S2).
  destruct (add_ok ld src m S1 S2) as (m1 & A1 & A2 & A3 & A4 & A5 & A6).
  assert (R1 : reg_ok' m1). { pose proof (pres_add' ld src Ws m R) as PA. rewrite A1 in PA. exact PA. }
  assert (SZ : size m1 = size m) by (now destruct A4 as (_ & _ & _ & _ & _ & _ & -> & _)).
  assert (RS : resn m1 = resn m) by (now destruct A4 as (_ & _ & _ & _ & -> & _)).
  assert (G1 : get m1 ls = Ok src).
  { destruct (String.string_dec ls ld) as [->|N]; [exact A2|]. rewrite A3 by auto. unfold get. now rewrite Hsrc. }
  assert (D1 : aget (data m1) ls = Some src) by (now apply get_has).
  assert (D2 : aget (data m1) ld = Some src) by (now apply get_has).
  set (sv := fun i : idx => cell src (fst i) (snd i)).
  assert (VA : forall l, (l = ls \/ l = ld) -> forall i, in_range (size m1) i -> at_ m1 l i = Ok (sv i)).
  { intros l Hl i [I1 I2]. unfold at_. assert (aget (data m1) l = Some src) as -> by (destruct Hl as [-> | ->]; auto).
    unfold sv. rewrite (mget_cell src _ _ Ws); [reflexivity|rewrite S1, <- SZ; auto|rewrite S2, <- SZ; auto]. }
  assert (VM : forall i v, value_at m ls i v <-> in_range (size m1) i /\ sv i = v).
  { intros i v. rewrite SZ. split.
    - intros V. pose proof (value_range _ _ _ _ (proj1 R) V) as VR. split; [exact VR|]. destruct V as (d & D & G). rewrite Hsrc in D. injection D as <-.
      unfold sv, cell. now rewrite G.
    - intros [[I1 I2] <-]. exists src. split; [auto|]. unfold sv. apply mget_cell; auto; [now rewrite S1|now rewrite S2]. }
  set (c := Cache r (r + 2) (hyp F) cost).
  destruct (fire_final P PS c ls ld m1 sv) with (q0 := if_queue o) as (st & L & RUN & I & LO & QE & ST & CL); auto.
  { exists src. exact D2. }
  set (hit := fun i s => exists q, In q L /\ q_at q = i /\ q_src q = s).
  exists (Inflater c (is_queue st)), (is_map st), hit. split.
  { unfold inflate. unfold get at 1. rewrite Hsrc, A1, (cell_radius_resn rad m m1 RS), CR. cbn [rbind].
    rewrite RS, TB. fold c.
    rewrite S1, S2, <- SZ. rewrite RUN. reflexivity. }
  destruct I as [ND IC _ _ IM ID IR _]. destruct IM as (IM1 & IM2 & IM3 & IM4).
  assert (HD2 : forall q, In q L -> forall k, 0 <= k <= r -> (q_dist q <= inject_Z k)%Q -> d2 (q_at q) (q_src q) <= k * k).
  { intros q Hq k Hk K. destruct (IC q Hq) as (_ & _ & _ & B3 & _ & B1 & B2). rewrite B3 in K. cbn [c c_rad] in *.
    eapply (dd_d2 c); eauto; cbn [c c_rad]; lia. }
  constructor.
  - eapply same_meta_trans; eauto.
  - exact IM1.
  - rewrite IM3. exact A5.
  - intros l. rewrite IM4. apply A6.
  - intros l N. rewrite <- (A3 l N). apply get_ext; auto.
    + now destruct IM2 as (_ & _ & _ & _ & _ & _ & -> & _).
    + intros i. apply IR. intros [K _]. contradiction.
  - intros i. destruct (in_dec_idx i (ats L)) as [K|K].
    + left. apply in_map_iff in K as (q & <- & Hq). exists (q_src q), q. auto.
    + right. intros s (q & Hq & <- & _). apply K, in_map, Hq.
  - intros i s (q & Hq & <- & <-). destruct (IC q Hq) as (B1 & B2 & B3 & B4 & B5 & B6). rewrite <- SZ. split; [auto|].
    split; [now apply VM|]. apply HD2; auto. lia.
  - intros i s s' (q & Hq & <- & <-) (q' & Hq' & E' & <-). f_equal.
    clear - ND Hq Hq' E'. unfold ats in ND. induction L as [|a L IH]; [destruct Hq|]. cbn in ND. inversion ND as [|? ? N1 N2]; subst.
    destruct Hq as [<-|Hq], Hq' as [<-|Hq']; auto.
    + exfalso. apply N1. rewrite <- E'. now apply in_map.
    + exfalso. apply N1. rewrite E'. now apply in_map.
  - intros i s v (q & Hq & <- & <-) V. apply VM in V as [_ <-]. apply at_value. rewrite (ID q Hq), combine_inflated. reflexivity.
  - intros i v NH V. apply VM in V as [VR <-]. apply at_value. rewrite IR; [now apply VA; auto|].
    intros [_ K]. apply in_map_iff in K as (q & Eq & Hq). apply (NH (q_src q)). exists q. auto.
  - intros i s n (q & Hq & <- & <-) Hn A D. rewrite <- SZ in Hn.
    destruct (IC q Hq) as (_ & _ & _ & _ & _ & B1 & B2).
    assert (K : In n (ats L)).
    { apply (CL q Hq n Hn A). cbn [c c_rad] in *. unfold InflationSpec.d1 in A. eapply (dd_d2 c); eauto; cbn [c c_rad]; try lia. }
    apply in_map_iff in K as (q' & <- & Hq'). exists (q_src q'), q'. auto.
  - intros p V. apply VM in V as [VR V]. specialize (ST p VR V). apply in_map_iff in ST as (q & <- & Hq). exists (q_src q), q. auto.
  - intros i s p (q & Hq & <- & <-) V K. apply VM in V as [VR V]. apply (HD2 q Hq); [unfold InflationSpec.d1 in *; lia|now apply LO].
Qed.

Lemma inflate_run o x ls ld rad comp m r : used F P o x -> reg_ok' m -> has_layer m ls ->
  cell_radius rad m = Ok r -> r < 2 ^ 32 - 2 -> dist_ok (hyp F) r ->
  let fo := in_force x r (resn m) comp in
  exists o' m' hit, inflate F P ls ld rad comp o m = Ret o' m' /\
    outcome r (cost_table F (fst fo) (snd fo)) ls ld m m' hit.
Proof.
  intros U R Hls CR Hr HD fo. pose proof (cell_radius_nonneg _ _ _ CR) as R0.
  pose proof (used_holds _ _ U) as HO. apply inflate_tables; auto; try apply HO. apply tables; auto.
Qed.

(** ** Consequences *)

Lemma inflated_ge old cost : old <> unknown -> old <= inflated old cost.
Proof. intros N. unfold inflated. destruct (Z.eq_dec old unknown); [contradiction|]. lia. Qed.

Lemma inflated_unknown cost : inflated unknown cost = unknown \/ inscribed <= inflated unknown cost.
Proof. unfold inflated. destruct (Z.eq_dec unknown unknown); [|contradiction]. destruct (Z_le_gt_dec inscribed cost); [right|left]; auto. Qed.

Section Outcome.
Context (r : Z) (cost : Z -> Z -> Z) (ls ld : string) (m m' : cmap) (hit : idx -> idx -> Prop).
Context (O : outcome r cost ls ld m m' hit) (R : reg_ok' m) (Hr : 0 <= r).

Lemma outcome_sound i v : value_at m ls i v -> exists v', value_at m' ld i v' /\
  (v' = v \/ exists s, value_at m ls s lethal /\ d2 i s <= r * r /\ v' = inflated v (at_offset cost i s)) /\
  (v <> unknown -> v <= v') /\ (v = unknown -> v' = unknown \/ inscribed <= v').
Proof.
  intros V. destruct (o_dec _ _ _ _ _ _ _ O i) as [[s H]|H].
  - exists (inflated v (at_offset cost i s)). split; [eapply o_value; eauto|]. destruct (o_hit _ _ _ _ _ _ _ O i s H) as (_ & L & D).
    split; [right; exists s; auto|]. split; [apply inflated_ge|intros ->; apply inflated_unknown].
  - exists v. split; [eapply o_keep; eauto|]. split; [now left|]. split; [lia|auto].
Qed.

Lemma outcome_far i v : value_at m ls i v -> (forall s, value_at m ls s lethal -> r * r < d2 i s) -> value_at m' ld i v.
Proof.
  intros V H. eapply o_keep; eauto. intros s K. destruct (o_hit _ _ _ _ _ _ _ O i s K) as (_ & L & D). specialize (H s L). lia.
Qed.

Lemma outcome_none : has_layer m ls -> (forall s, ~ value_at m ls s lethal) -> get m' ld = get m ls.
Proof.
  intros HL NL. destruct HL as [d Hd]. destruct (r_mat _ (proj1 R) _ _ Hd) as (W & R1 & R2).
  assert (HX : exists_layer m' ld = true) by (apply (o_exists _ _ _ _ _ _ _ O); now right).
  apply exists_has in HX as [d' Hd']. destruct (r_mat _ (proj1 (o_reg _ _ _ _ _ _ _ O)) _ _ Hd') as (W' & R1' & R2').
  unfold get. rewrite Hd, Hd'. f_equal.
  assert (S : size m' = size m) by (destruct (o_meta _ _ _ _ _ _ _ O) as (_ & _ & _ & _ & _ & _ & -> & _); reflexivity).
  apply mat_ext; auto; try congruence. intros i j Hi Hj.
  assert (V : value_at m ls (i, j) (cell d i j)). { exists d. split; [auto|]. cbn. apply mget_cell; auto; congruence. }
  destruct (outcome_far (i, j) _ V) as (d2' & D2 & G2). { intros s L. destruct (NL s L). }
  rewrite Hd' in D2. injection D2 as <-. cbn in G2. rewrite G2. symmetry. apply mget_cell; auto; congruence.
Qed.

Lemma outcome_l1_hit o i : value_at m ls o lethal -> in_range (size m) i -> d1 i o <= r -> exists s, hit i s.
Proof.
  intros L. assert (Ho : in_range (size m) o) by (eapply value_range; eauto; apply R).
  assert (G : forall k, 0 <= k -> forall i, in_range (size m) i -> d1 i o = k -> k <= r -> exists s, hit i s).
  { apply (Zlt_0_ind (fun k => forall i, in_range (size m) i -> d1 i o = k -> k <= r -> exists s, hit i s)).
    intros k IH Hk j Hj D K. destruct (in_dec_idx j [o]) as [[E1|[]]|NI]; [subst j; now apply (o_start _ _ _ _ _ _ _ O)|].
    assert (NE : j <> o) by (intros ->; apply NI; now left).
    destruct (closer j o NE) as (j' & A & D' & _ & RG).
    assert (0 < k) by (unfold d1 in *; lia).
    destruct (IH (k - 1)) with (i := j') as (s & H'); [lia|now apply RG|lia|lia|].
    apply (o_spread _ _ _ _ _ _ _ O j' s j H' Hj A).
    pose proof (o_near _ _ _ _ _ _ _ O j' s o H' L ltac:(lia)) as N.
    assert (d2 j s <= (d1 j' o + 1) * (d1 j' o + 1)) by (apply (step_d2 j j' s); auto; unfold d1; lia). nia. }
  intros Hi D. apply (G (d1 i o)); auto. unfold d1; lia.
Qed.

Lemma outcome_l1 o i v : value_at m ls o lethal -> value_at m ls i v -> d1 i o <= r ->
  exists s, value_at m ls s lethal /\ d2 i s <= d1 i o * d1 i o /\ value_at m' ld i (inflated v (at_offset cost i s)).
Proof.
  intros L V D. destruct (outcome_l1_hit o i L) as (s & H); auto. { eapply value_range; eauto; apply R. }
  exists s. split; [apply (o_hit _ _ _ _ _ _ _ O i s H)|]. split; [eapply o_near; eauto|eapply o_value; eauto].
Qed.

Lemma outcome_small o i v : r <= 2 -> value_at m ls o lethal -> value_at m ls i v -> d2 i o <= r * r ->
  exists s, value_at m ls s lethal /\ d2 i s <= r * r /\ value_at m' ld i (inflated v (at_offset cost i s)).
Proof.
  intros R2 L V D. destruct (outcome_l1_hit o i L) as (s & H).
  - eapply value_range; eauto; apply R.
  - unfold d2, d1 in *. set (x := fst i - fst o) in *. set (y := snd i - snd o) in *. clearbody x y.
    assert (r = 0 \/ r = 1 \/ r = 2) as HR by lia. assert (Z.abs x <= r) by nia. assert (Z.abs y <= r) by nia.
    assert (HX : x = -2 \/ x = -1 \/ x = 0 \/ x = 1 \/ x = 2) by lia. assert (HY : y = -2 \/ y = -1 \/ y = 0 \/ y = 1 \/ y = 2) by lia.
    destruct HR as [->|[->| ->]], HX as [->|[->|[->|[->| ->]]]], HY as [->|[->|[->|[->| ->]]]]; lia.
  - exists s. destruct (o_hit _ _ _ _ _ _ _ O i s H) as (_ & A & B). split; [auto|]. split; [auto|]. eapply o_value; eauto.
Qed.

Lemma outcome_single o i v : (forall s, value_at m ls s lethal <-> s = o) -> value_at m ls i v ->
  value_at m' ld i (if Z_le_gt_dec (d2 i o) (r * r) then inflated v (at_offset cost i o) else v).
Proof.
  intros ON V. assert (Ho : in_range (size m) o). { apply (value_range m ls o lethal); [apply R|now apply ON]. }
  assert (G : forall k, 0 <= k -> forall i, in_range (size m) i -> d1 i o = k -> d2 i o <= r * r -> hit i o).
  { apply (Zlt_0_ind (fun k => forall i, in_range (size m) i -> d1 i o = k -> d2 i o <= r * r -> hit i o)).
    intros k IH Hk j Hj D K.
    assert (HS : forall j s, hit j s -> s = o). { intros j0 s H. apply ON. apply (o_hit _ _ _ _ _ _ _ O j0 s H). }
    destruct (in_dec_idx j [o]) as [[E1|[]]|NI].
    { subst j. destruct (o_start _ _ _ _ _ _ _ O o) as (s & H); [now apply ON|]. now rewrite <- (HS o s H) at 2. }
    assert (NE : j <> o) by (intros ->; apply NI; now left).
    destruct (closer j o NE) as (j' & A & D' & D2' & RG).
    assert (H' : hit j' o). { apply (IH (d1 j' o)); [unfold d1 in *; lia|now apply RG|reflexivity|lia]. }
    destruct (o_spread _ _ _ _ _ _ _ O j' o j H' Hj A K) as (s & H). now rewrite <- (HS j s H). }
  destruct (Z_le_gt_dec (d2 i o) (r * r)) as [K|K].
  - eapply o_value; eauto. apply (G (d1 i o)); auto; [unfold d1; lia|eapply value_range; eauto; apply R].
  - apply outcome_far; auto. intros s L. apply ON in L. subst s. lia.
Qed.
End Outcome.
End Calls.
