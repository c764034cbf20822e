(** The brushfire of Inflate. *)
From Coq Require Import ZArith QArith Qround String List Bool Permutation Lia Lqa.
From Verif Require Import Base Mat GridIter CostMap Inflation Spec InflationSpec BaseLemmas GeoLemmas CoreProofs CoreProofs2 CoreFinal AddDataProofs.
Import ListNotations.
Open Scope Z_scope.

Lemma mfor_flat {S} (js is : list Z) (body : idx -> M S unit) : forall s,
  mfor js (fun j => mfor is (fun i => body (i, j))) s =
  mfor (flat_map (fun j => map (fun i => (i, j)) is) js) body s.
Proof.
  induction js as [|j js IH]; intros s; [reflexivity|]. cbn [flat_map mfor].
  rewrite mfor_app. assert (K : forall s, mfor is (fun i => body (i, j)) s = mfor (map (fun i => (i, j)) is) body s).
  { clear. induction is as [|i is IH]; intros s; [reflexivity|]. cbn. destruct (body (i, j) s); auto. }
  rewrite K. destruct (mfor (map (fun i => (i, j)) is) body s); auto.
Qed.

(** All cells, rows fastest. *)
Definition grid (rows cols : Z) : list idx := flat_map (fun j => map (fun i => (i, j)) (zseq rows)) (zseq cols).

Lemma grid_In rows cols n : In n (grid rows cols) <-> in_range (rows, cols) n.
Proof.
  unfold grid, in_range. rewrite in_flat_map. cbn [fst snd]. split.
  - intros (j & Hj & H). apply in_map_iff in H as (i & <- & Hi). rewrite In_zseq in Hi, Hj. auto.
  - intros [A B]. exists (snd n). split; [now apply In_zseq|]. apply in_map_iff. exists (fst n).
    split; [now destruct n|now apply In_zseq].
Qed.

Lemma grid_length rows cols : List.length (grid rows cols) = (Z.to_nat cols * Z.to_nat rows)%nat.
Proof.
  assert (G : forall (js is : list Z), List.length (flat_map (fun j => map (fun i => (i, j)) is) js) = (List.length js * List.length is)%nat).
  { intros js is. induction js as [|j l IH]; [reflexivity|]. cbn [flat_map]. rewrite app_length, map_length, IH. reflexivity. }
  unfold grid. rewrite G, !zseq_length. reflexivity.
Qed.

Lemma grid_NoDup rows cols : NoDup (grid rows cols).
Proof.
  unfold grid. generalize (zseq_NoDup cols). induction (zseq cols) as [|j l IH]; intros ND; [constructor|].
  inversion ND as [|? ? NI ND']; subst. cbn [flat_map].
  assert (A : NoDup (map (fun i => (i, j)) (zseq rows))).
  { apply FinFun.Injective_map_NoDup; [intros a b H; congruence|apply zseq_NoDup]. }
  revert A. generalize (zseq rows) at 1 2. intros is A.
  induction is as [|i is IHi]; [auto|]. cbn. inversion A; subst. constructor; auto.
  rewrite in_app_iff, in_flat_map. intros [C|(j' & Hj & C)]; [auto|].
  apply in_map_iff in C as (i' & E & _). congruence.
Qed.

(** ** The run *)
Definition adjacent (a b : idx) : Prop := d1 a b = 1.

Lemma closer x o : x <> o -> exists x', adjacent x x' /\ d1 x' o = d1 x o - 1 /\ d2 x' o <= d2 x o /\
  forall sz, in_range sz x -> in_range sz o -> in_range sz x'.
Proof.
  destruct x as [x y], o as [u v]. unfold adjacent, d1, d2, in_range. cbn [fst snd]. intros N.
  destruct (Z_lt_le_dec x u); [exists (x + 1, y)|destruct (Z_lt_le_dec u x); [exists (x - 1, y)|
    destruct (Z_lt_le_dec y v); [exists (x, y + 1)|exists (x, y - 1)]]]; cbn [fst snd]; try (split; [|split; [|split]]; [lia|lia|nia|intros; lia]).
  assert (y <> v) by (intros ->; apply N; f_equal; lia). split; [lia|]. split; [lia|]. split; [nia|]. intros; lia.
Qed.

Lemma step_d2 a b s k : adjacent a b -> 0 <= k -> d2 b s <= k * k -> d2 a s <= (k + 1) * (k + 1).
Proof.
  unfold adjacent, d1, d2. destruct a as [a0 a1], b as [b0 b1], s as [s0 s1]. cbn [fst snd]. intros A K H.
  assert (E : (a0 = b0 /\ (a1 = b1 + 1 \/ a1 = b1 - 1)) \/ (a1 = b1 /\ (a0 = b0 + 1 \/ a0 = b0 - 1))) by lia.
  set (u := b0 - s0) in *. set (v := b1 - s1) in *.
  assert (Z.abs u <= k) by nia. assert (Z.abs v <= k) by nia.
  destruct E as [[E1 E2]|[E1 E2]].
  - replace (a0 - s0) with u by lia. assert (a1 - s1 = v + 1 \/ a1 - s1 = v - 1) as [-> | ->] by lia; nia.
  - replace (a1 - s1) with v by lia. assert (a0 - s0 = u + 1 \/ a0 - s0 = u - 1) as [-> | ->] by lia; nia.
Qed.

Section Brushfire.
Context (P : pqueue) (PS : pq_spec P).
Context (c : cache) (ls ld : string) (m0 : cmap) (sv : idx -> Z).
Let r := c_rad c.
Context (Hr : 0 <= r) (Hdim : c_dim c = r + 2) (Hdist : dist_ok (c_dist c) r).
Context (R0 : reg_ok' m0) (Hls : has_layer m0 ls) (Hld : has_layer m0 ld).
Context (Hsv : forall i, in_range (size m0) i -> at_ m0 ls i = Ok (sv i)).

Definition dd (a b : idx) : Q := at_offset (c_dist c) a b.
Definition ats (L : list qcell) : list idx := map q_at L.

(** What has been done once the cells [L] have been pushed. *)
Record Inv (L : list qcell) (st : istate P) : Prop :=
  { i_nodup : NoDup (ats L);
    i_cell : forall q, In q L -> in_range (size m0) (q_at q) /\ in_range (size m0) (q_src q) /\
               sv (q_src q) = lethal /\ q_dist q = dd (q_at q) (q_src q) /\ (q_dist q <= inject_Z r)%Q /\
               Z.abs (fst (q_at q) - fst (q_src q)) <= r /\ Z.abs (snd (q_at q) - snd (q_src q)) <= r;
    i_wf : wf_mat (is_seen st) /\ mrows (is_seen st) = fst (size m0) /\ mcols (is_seen st) = snd (size m0);
    i_seen : forall i, in_range (size m0) i ->
               exists b, mget (is_seen st) (fst i) (snd i) = Some b /\ (b = 0 <-> ~ In i (ats L));
    i_map : cells m0 (is_map st);
    i_done : forall q, In q L -> at_ (is_map st) ld (q_at q) = Ok (combine (sv (q_at q)) (at_offset (c_cost c) (q_at q) (q_src q)));
    i_rest : forall l i, ~ (l = ld /\ In i (ats L)) -> at_ (is_map st) l i = at_ m0 l i;
    i_queue : pq_wf PS (is_queue st) }.

Lemma lookup_ok {A} (t : Z -> Z -> A) a b : Z.abs (fst a - fst b) <= r + 1 -> Z.abs (snd a - snd b) <= r + 1 ->
  lookup c t a b = Ok (at_offset t a b).
Proof.
  intros H1 H2. unfold lookup. rewrite Hdim.
  assert ((Z.abs (fst a - fst b) <? r + 2) && (Z.abs (snd a - snd b) <? r + 2) = true) as -> by lia. reflexivity.
Qed.

Lemma dd_d2 a b k : Z.abs (fst a - fst b) <= r + 1 -> Z.abs (snd a - snd b) <= r + 1 -> 0 <= k <= r ->
  (dd a b <= inject_Z k)%Q <-> d2 a b <= k * k.
Proof.
  intros H1 H2 Hk. unfold dd, at_offset.
  pose proof (Hdist (Z.abs (fst a - fst b)) (Z.abs (snd a - snd b)) k ltac:(lia) ltac:(lia) ltac:(lia)) as K.
  rewrite !Z.abs_square in K. exact K.
Qed.

(** A cell in reach is in reach along each axis. *)
Lemma reach_axis a b : (dd a b <= inject_Z r)%Q -> Z.abs (fst a - fst b) <= r + 1 -> Z.abs (snd a - snd b) <= r + 1 ->
  Z.abs (fst a - fst b) <= r /\ Z.abs (snd a - snd b) <= r.
Proof. intros H H1 H2. apply dd_d2 in H; try lia. unfold d2 in H. nia. Qed.

Definition near (a b : idx) : Prop := Z.abs (fst a - fst b) <= r + 1 /\ Z.abs (snd a - snd b) <= r + 1.

Lemma in_dec_idx (i : idx) l : {In i l} + {~ In i l}.
Proof. apply in_dec. intros [a b] [x y]. destruct (Z.eq_dec a x), (Z.eq_dec b y); [left|right|right|right]; congruence. Qed.

Lemma enqueue_ok L st n s : Inv L st -> in_range (size m0) n -> in_range (size m0) s -> sv s = lethal -> near n s ->
  exists st', enqueue P c ls ld n s st = Ret tt st' /\
  (((In n (ats L) \/ (inject_Z r < dd n s)%Q) /\ st' = st) \/
   (~ In n (ats L) /\ (dd n s <= inject_Z r)%Q /\ Inv (QCell (dd n s) n s :: L) st' /\
    is_queue st' = pq_push P (QCell (dd n s) n s) (is_queue st))).
Proof.
  intros I Hn Hs Ls [N1 N2]. destruct I as [ND IC (W & WR & WC) IS IM ID IR IQ].
  unfold enqueue. destruct (IS n Hn) as (b & Hb & Hb'). rewrite Hb.
  destruct (Z.eqb_spec b 0) as [Z0|Z0].
  2:{ exists st. split; [reflexivity|]. left. split; [|reflexivity]. left. destruct (in_dec_idx n (ats L)) as [K|K]; auto. apply Hb' in K. contradiction. }
  rewrite lookup_ok by auto. change (at_offset (c_dist c) n s) with (dd n s).
  change (inject_Z (c_rad c)) with (inject_Z r).
  destruct (Qlt_bool (inject_Z r) (dd n s)) eqn:D.
  { exists st. split; [reflexivity|]. left. split; [|reflexivity]. right. now apply Qlt_bool_iff. }
  apply Qlt_bool_false in D. rewrite lookup_ok by auto. apply Hb' in Z0.
  assert (IRn : forall l, at_ (is_map st) l n = at_ m0 l n). { intros l. apply IR. tauto. }
  rewrite IRn, (Hsv n Hn).
  destruct (at_set_cells ld n (combine (sv n) (at_offset (c_cost c) n s)) (is_map st)) as (m' & Hm & C' & A').
  { apply IM. } { apply (cells_has _ _ _ IM); auto. } { now rewrite (cells_size _ _ IM). }
  rewrite Hm. destruct (mset_Some (is_seen st) (fst n) (snd n) 1) as [seen' Hse]. { rewrite WR. apply Hn. } { rewrite WC. apply Hn. }
  rewrite Hse. pose proof (mset_spec _ _ _ _ _ W Hse) as (_ & W' & WR' & WC' & G').
  eexists. split; [reflexivity|]. right. split; [auto|]. split; [auto|]. split; [|reflexivity].
  constructor; cbn [is_map is_seen is_queue ats map q_at q_src q_dist].
  - constructor; auto.
  - intros q [<-|Hq]; cbn [q_at q_src q_dist]; [|now apply IC]. split; [auto|]. split; [auto|]. split; [auto|].
    split; [reflexivity|]. split; [auto|]. now apply reach_axis.
  - split; [auto|]. split; congruence.
  - intros i Hi. rewrite G'. destruct ((fst i =? fst n) && (snd i =? snd n)) eqn:K.
    + exists 1. split; [reflexivity|]. assert (i = n) as -> by (destruct i, n; cbn in *; f_equal; lia). cbn. split; [lia|tauto].
    + destruct (IS i Hi) as (b' & Hb1 & Hb2). exists b'. split; [exact Hb1|]. rewrite Hb2. cbn.
      assert (n <> i) by (intros ->; rewrite !Z.eqb_refl in K; discriminate). tauto.
  - eapply cells_trans; eauto.
  - intros q [<-|Hq]; cbn [q_at q_src]; rewrite A', String.eqb_refl; cbn [andb].
    + rewrite (proj2 (idx_eqb_eq n n) eq_refl). reflexivity.
    + destruct (idx_eqb (q_at q) n) eqn:K; [|now apply ID]. apply idx_eqb_eq in K. exfalso. apply Z0. rewrite <- K. now apply in_map.
  - intros l i K. rewrite A'. destruct (String.eqb_spec l ld) as [->|NE]; cbn [andb].
    + destruct (idx_eqb i n) eqn:K2; [apply idx_eqb_eq in K2; subst i; exfalso; apply K; cbn; auto|].
      apply IR. intros [_ K3]. apply K. split; [auto|]. now right.
    + apply IR. tauto.
  - now apply pq_wf_push.
Qed.

(** ** Scanning for obstacles *)

Lemma scan_ok st : Inv [] st -> pq_items PS (is_queue st) = [] ->
  exists st' L, scan P c ls ld (fst (size m0)) (snd (size m0)) st = Ret tt st' /\ Inv L st' /\
   Permutation (pq_items PS (is_queue st')) L /\
   (forall q, In q L -> q_at q = q_src q) /\
   (forall o, in_range (size m0) o -> sv o = lethal -> In o (ats L)).
Proof.
  intros I0 Q0. unfold scan.
  set (body := fun (n : idx) (st : istate P) => match at_ (is_map st) ls n with
    | Throw e => Exn e st | Fault f => Flt f
    | Ok cost => if cost =? LETHAL_OBSTACLE then enqueue P c ls ld n n st else Ret tt st end).
  change (exists st' L, mfor (zseq (snd (size m0))) (fun j => mfor (zseq (fst (size m0))) (fun i => body (i, j))) st = Ret tt st' /\ Inv L st' /\
   Permutation (pq_items PS (is_queue st')) L /\ (forall q, In q L -> q_at q = q_src q) /\
   (forall o, in_range (size m0) o -> sv o = lethal -> In o (ats L))).
  rewrite mfor_flat. change (flat_map _ _) with (grid (fst (size m0)) (snd (size m0))).
  assert (G : forall us L st, NoDup us -> (forall n, In n us -> in_range (size m0) n) ->
     (forall n, In n us -> ~ In n (ats L)) -> Inv L st -> Permutation (pq_items PS (is_queue st)) L ->
     (forall q, In q L -> q_at q = q_src q) ->
     exists st' L', mfor us body st = Ret tt st' /\ Inv L' st' /\ Permutation (pq_items PS (is_queue st')) L' /\
      (forall q, In q L' -> q_at q = q_src q) /\ (forall q, In q L -> In q L') /\
      (forall o, In o us -> sv o = lethal -> In o (ats L'))).
  { clear st I0 Q0. induction us as [|n us IH]; intros L st ND HR HN I HP HS.
    - exists st, L. split; [reflexivity|]. split; [auto|]. split; [auto|]. split; [auto|]. split; [auto|]. intros o [].
    - inversion ND as [|? ? NI ND']; subst. cbn [mfor].
      assert (Hn : in_range (size m0) n) by (apply HR; now left).
      assert (NL : ~ In n (ats L)) by (apply HN; now left).
      assert (B : body n st = if sv n =? LETHAL_OBSTACLE then enqueue P c ls ld n n st else Ret tt st).
      { unfold body. rewrite (i_rest _ _ I) by tauto. now rewrite Hsv. }
      rewrite B. destruct (Z.eqb_spec (sv n) LETHAL_OBSTACLE) as [LE|NE].
      + destruct (enqueue_ok L st n n I Hn Hn LE) as (st1 & H1 & K). { unfold near. lia. }
        rewrite H1.
        assert (D0 : (dd n n <= inject_Z r)%Q). { apply dd_d2; try lia. unfold d2. nia. }
        destruct K as [[[K|K] _]|(_ & _ & I1 & EQ)]; [contradiction|lra|].
        destruct (IH (QCell (dd n n) n n :: L) st1) as (st' & L' & A1 & A2 & A3 & A4 & A5 & A6); auto.
        * intros k Hk. apply HR. now right.
        * intros k Hk [C|C]; cbn in C; [subst k; auto|]. apply (HN k); [now right|auto].
        * rewrite EQ, pq_items_push by apply (i_queue _ _ I). now constructor.
        * intros q [<-|Hq]; [reflexivity|auto].
        * exists st', L'. split; [auto|]. split; [auto|]. split; [auto|]. split; [auto|]. split; [intros; apply A5; now right|].
          intros o [<-|Ho] Lo; [|now apply A6]. change n with (q_at (QCell (dd n n) n n)). apply in_map, A5. now left.
      + destruct (IH L st) as (st' & L' & A1 & A2 & A3 & A4 & A5 & A6); auto.
        * intros k Hk. apply HR. now right.
        * intros k Hk. apply HN. now right.
        * exists st', L'. split; [auto|]. split; [auto|]. split; [auto|]. split; [auto|]. split; [auto|].
          intros o [<-|Ho] Lo; [contradiction|now apply A6]. }
  destruct (G (grid (fst (size m0)) (snd (size m0))) [] st) as (st' & L & A1 & A2 & A3 & A4 & _ & A6); auto.
  - apply grid_NoDup.
  - intros n Hn. apply grid_In in Hn. exact Hn.
  - now rewrite Q0.
  - intros q [].
  - exists st', L. split; [auto|]. split; [auto|]. split; [auto|]. split; [auto|].
    intros o Ho. apply A6. now apply grid_In.
Qed.

(** ** Spreading *)

(** Every obstacle within Manhattan distance k <= r is at least as far as the
    recorded distance. *)
Definition l1_ok (L : list qcell) : Prop :=
  forall q o, In q L -> in_range (size m0) o -> sv o = lethal -> d1 (q_at q) o <= r ->
    (q_dist q <= inject_Z (d1 (q_at q) o))%Q.

Definition closed (L : list qcell) (q : qcell) : Prop :=
  forall n, in_range (size m0) n -> adjacent n (q_at q) -> (dd n (q_src q) <= inject_Z r)%Q -> In n (ats L).

Lemma near_neighbour L st q n : Inv L st -> In q L -> adjacent n (q_at q) -> near n (q_src q).
Proof.
  intros I Hq A. destruct (i_cell _ _ I q Hq) as (_ & _ & _ & _ & _ & B1 & B2).
  unfold adjacent, d1 in A. unfold near. lia.
Qed.

(** Moving on by one cell. *)
Lemma step_dd L st p n k : Inv L st -> In p L -> adjacent n (q_at p) -> 0 <= k -> k + 1 <= r ->
  (q_dist p <= inject_Z k)%Q -> (dd n (q_src p) <= inject_Z (k + 1))%Q.
Proof.
  intros I Hp A K KR H. destruct (i_cell _ _ I p Hp) as (_ & _ & _ & B3 & _ & B1 & B2). rewrite B3 in H.
  apply dd_d2 in H; try lia. destruct (near_neighbour L st p n I Hp A) as [N1 N2].
  apply dd_d2; try lia. eapply step_d2; eauto.
Qed.

Lemma lethal_start L st o : Inv L st -> l1_ok L -> in_range (size m0) o -> sv o = lethal -> In o (ats L) ->
  exists p, In p L /\ q_at p = o /\ (q_dist p <= inject_Z 0)%Q.
Proof.
  intros I LO Ho So Hin. apply in_map_iff in Hin as (p & E & Hp). exists p. split; [auto|]. split; [auto|].
  assert (D : d1 (q_at p) o = 0) by (rewrite E; unfold d1; lia). rewrite <- D. apply LO; auto. lia.
Qed.

(** If all cells nearer than k - 1 have been expanded, the cells within Manhattan
    distance k of an obstacle have been pushed. *)
Lemma wave L st o k : Inv L st -> l1_ok L -> in_range (size m0) o -> sv o = lethal -> In o (ats L) -> k <= r ->
  (forall p, In p L -> (q_dist p <= inject_Z (k - 1))%Q -> closed L p) ->
  forall x, in_range (size m0) x -> d1 x o <= k -> In x (ats L).
Proof.
  intros I LO Ho So Hin HK HC. assert (G : forall j, 0 <= j -> forall x, in_range (size m0) x -> d1 x o = j -> j <= k -> In x (ats L)).
  { apply (Zlt_0_ind (fun j => forall x, in_range (size m0) x -> d1 x o = j -> j <= k -> In x (ats L))).
    intros j IH Hj x Hx D J. destruct (in_dec_idx x [o]) as [[K|[]]|K]; [now subst x|].
    assert (NE : x <> o) by (intros ->; apply K; now left).
    destruct (closer x o NE) as (x' & A & D' & _ & RG). 
    assert (0 < j) by (unfold d1 in *; lia).
    assert (IN : In x' (ats L)) by (apply (IH (j - 1)); [lia|now apply RG|lia|lia]).
    apply in_map_iff in IN as (p & E & Hp). subst x'.
    assert (DP : (q_dist p <= inject_Z (j - 1))%Q). { replace (j - 1) with (d1 (q_at p) o) by lia. apply LO; auto. lia. }
    assert (CL : closed L p). { apply HC; auto. eapply Qle_trans; [exact DP|]. rewrite <- Zle_Qle. lia. }
    apply CL; auto. replace r with (r - 1 + 1) by lia. eapply Qle_trans; [apply (step_dd L st p x (j - 1)); auto; try lia|]. rewrite <- Zle_Qle. lia. }
  intros x Hx D. apply (G (d1 x o)); auto. unfold d1. lia.
Qed.

Lemma closed_mono L L' q : (forall p, In p L -> In p L') -> closed L q -> closed L' q.
Proof. intros S C n Hn A D. specialize (C n Hn A D). apply in_map_iff in C as (p & <- & Hp). apply in_map, S, Hp. Qed.

(** The neighbours of a popped cell [q], one after the other. *)
Section Spread.
Context (L0 I0 : list qcell) (q : qcell) (st0 : istate P).
Context (H0 : Inv L0 st0) (LO0 : l1_ok L0) (Hq : In q L0)
        (HO : forall o, in_range (size m0) o -> sv o = lethal -> In o (ats L0))
        (HM : forall p, In p L0 -> (q_dist p < q_dist q)%Q -> closed L0 p).

Definition Stepped (N : list qcell) (st : istate P) : Prop :=
  Inv (N ++ L0) st /\ l1_ok (N ++ L0) /\ Permutation (pq_items PS (is_queue st)) (N ++ I0).

Lemma new_bound n o : in_range (size m0) n -> adjacent n (q_at q) -> ~ In n (ats L0) ->
  in_range (size m0) o -> sv o = lethal -> d1 n o <= r -> (dd n (q_src q) <= inject_Z (d1 n o))%Q.
Proof.
  intros Hn A NI Ho So D. set (k := d1 n o) in *.
  assert (K1 : 1 <= k).
  { destruct (Z_le_gt_dec 1 k); [auto|exfalso]. apply NI. replace n with o; [now apply HO|].
    unfold k, d1 in *. destruct n, o; cbn [fst snd] in *. f_equal; lia. }
  destruct (Qlt_le_dec (inject_Z (k - 1)) (q_dist q)) as [K|K].
  - exfalso. apply NI. apply (wave L0 st0 o k); auto; try lia. intros p Hp Dp. apply HM; auto. eapply Qle_lt_trans; eauto.
  - replace k with (k - 1 + 1) by lia. apply (step_dd L0 st0 q n (k - 1)); auto; lia.
Qed.

Lemma try_ok N st (b : bool) n : Stepped N st -> adjacent n (q_at q) -> (b = true <-> in_range (size m0) n) ->
  exists N' st', (if b then enqueue P c ls ld n (q_src q) else ret tt) st = Ret tt st' /\ Stepped N' st' /\
    (forall p, In p N -> In p N') /\
    (in_range (size m0) n -> (dd n (q_src q) <= inject_Z r)%Q -> In n (ats (N' ++ L0))).
Proof.
  intros (I & LO & PE) A HB. destruct b.
  2:{ exists N, st. split; [reflexivity|]. split; [split; auto|]. split; [auto|]. intros K. apply HB in K. discriminate. }
  assert (Hn : in_range (size m0) n) by now apply HB.
  destruct (i_cell _ _ H0 q Hq) as (_ & Hs & Ls & _).
  destruct (enqueue_ok (N ++ L0) st n (q_src q) I Hn Hs Ls (near_neighbour L0 st0 q n H0 Hq A)) as (st' & E & [[K ->]|(K1 & K2 & K3 & K4)]).
  - exists N, st. split; [exact E|]. split; [split; auto|]. split; [auto|]. intros _ D. destruct K as [K|K]; [exact K|lra].
  - exists (QCell (dd n (q_src q)) n (q_src q) :: N), st'. split; [exact E|]. split; [|split; [now right|intros _ _; now left]].
    split; [exact K3|]. split.
    + intros p o [<-|Hp] Ho So D; [|now apply LO]. cbn [q_at q_dist] in *. apply new_bound; auto.
      intros C. apply K1. unfold ats. rewrite map_app, in_app_iff. now right.
    + rewrite K4, pq_items_push by apply (i_queue _ _ I). cbn. now constructor.
Qed.

Lemma spread_ok st : Stepped [] st ->
  exists N st', spread P c ls ld (size m0) q st = Ret tt st' /\ Stepped N st' /\ closed (N ++ L0) q.
Proof.
  intros S0. destruct (i_cell _ _ H0 q Hq) as ([X Y] & _). unfold spread, bind.
  set (x := fst (q_at q)) in *. set (y := snd (q_at q)) in *.
  destruct (try_ok [] st (0 <? x) (x - 1, y) S0) as (N1 & st1 & E1 & S1 & _ & C1).
  { unfold adjacent, d1. cbn. lia. } { unfold in_range. cbn. lia. } rewrite E1.
  destruct (try_ok N1 st1 (0 <? y) (x, y - 1) S1) as (N2 & st2 & E2 & S2 & M2 & C2).
  { unfold adjacent, d1. cbn. lia. } { unfold in_range. cbn. lia. } rewrite E2.
  destruct (try_ok N2 st2 (x <? fst (size m0) - 1) (x + 1, y) S2) as (N3 & st3 & E3 & S3 & M3 & C3).
  { unfold adjacent, d1. cbn. lia. } { unfold in_range. cbn. lia. } rewrite E3.
  destruct (try_ok N3 st3 (y <? snd (size m0) - 1) (x, y + 1) S3) as (N4 & st4 & E4 & S4 & M4 & C4).
  { unfold adjacent, d1. cbn. lia. } { unfold in_range. cbn. lia. } rewrite E4.
  exists N4, st4. split; [reflexivity|]. split; [exact S4|]. intros n Hn A D.
  assert (MO : forall N n, (forall p, In p N -> In p N4) -> In n (ats (N ++ L0)) -> In n (ats (N4 ++ L0))).
  { intros N n' S H. apply in_map_iff in H as (p & <- & Hp). apply in_map. apply in_app_iff in Hp. apply in_app_iff. intuition. }
  assert (CS : n = (x - 1, y) \/ n = (x, y - 1) \/ n = (x + 1, y) \/ n = (x, y + 1)).
  { unfold adjacent, d1 in A. fold x y in A. destruct n as [n0 n1]; cbn [fst snd] in *.
    assert ((n0 = x - 1 /\ n1 = y) \/ (n0 = x /\ n1 = y - 1) \/ (n0 = x + 1 /\ n1 = y) \/ (n0 = x /\ n1 = y + 1)) by lia.
    intuition congruence. }
  destruct CS as [-> | [-> | [-> | ->]]]; [apply (MO N1)|apply (MO N2)|apply (MO N3)|apply (MO N4)]; auto.
Qed.
End Spread.

(** ** The loop *)

Lemma NoDup_range (l : list idx) : NoDup l -> (forall i, In i l -> in_range (size m0) i) ->
  (List.length l <= Z.to_nat (fst (size m0) * snd (size m0)))%nat.
Proof.
  intros ND H. replace (Z.to_nat (fst (size m0) * snd (size m0))) with (List.length (grid (fst (size m0)) (snd (size m0)))).
  - apply NoDup_incl_length; auto. intros i Hi. apply grid_In. apply H in Hi. exact Hi.
  - rewrite grid_length. destruct R0 as (_ & S0 & S1). rewrite Z2Nat.inj_mul by auto. lia.
Qed.

Lemma brushfire_ok : forall f L D st, Inv L st -> l1_ok L -> Permutation (pq_items PS (is_queue st) ++ D) L ->
  (forall o, in_range (size m0) o -> sv o = lethal -> In o (ats L)) ->
  (forall p, In p D -> closed L p) ->
  (Z.to_nat (fst (size m0) * snd (size m0)) <= List.length D + f)%nat ->
  exists st' L', brushfire P c ls ld (size m0) f st = Ret tt st' /\ Inv L' st' /\ l1_ok L' /\
    pq_items PS (is_queue st') = [] /\ (forall p, In p L -> In p L') /\ (forall p, In p L' -> closed L' p).
Proof.
  induction f as [|f IH]; intros L D st I LO PE HO HC HF.
  all: assert (LEN : (List.length L <= Z.to_nat (fst (size m0) * snd (size m0)))%nat)
    by (rewrite <- (map_length q_at); apply NoDup_range; [apply (i_nodup _ _ I)|intros i Hi; apply in_map_iff in Hi as (p & <- & Hp); now apply (i_cell _ _ I)]).
  all: cbn [brushfire]; destruct (pq_pop P (is_queue st)) as [[q rest]|] eqn:PO.
  2,4: apply (pq_pop_none _ PS) in PO; [|apply (i_queue _ _ I)]; exists st, L; split; [reflexivity|]; split; [auto|]; split; [auto|];
       split; [auto|]; split; [auto|]; intros p Hp; apply HC; rewrite PO in PE; cbn in PE; apply (Permutation_in p (Permutation_sym PE)); exact Hp.
  all: destruct (pq_pop_some _ PS q _ rest (i_queue _ _ I) PO) as (W' & PI & MI).
  all: assert (PE2 : Permutation (q :: pq_items PS rest ++ D) L) by (rewrite <- PE, PI; reflexivity).
  - exfalso. apply Permutation_length in PE2. cbn in PE2. rewrite app_length in PE2. lia.
  - set (st1 := IState (is_map st) (is_seen st) rest).
    assert (I1 : Inv L st1). { destruct I. constructor; auto. }
    assert (Hq : In q L). { apply (Permutation_in q PE2). now left. }
    destruct (spread_ok L (pq_items PS rest) q st1 I1 LO Hq HO) with (st := st1) as (N & st2 & E2 & S2 & C2).
    { intros p Hp Lt. apply (Permutation_in p (Permutation_sym PE2)) in Hp as [<-|Hp]; [lra|].
      apply in_app_iff in Hp as [Hp|Hp]; [|now apply HC]. apply MI in Hp. lra. }
    { split; [exact I1|]. split; [exact LO|]. reflexivity. }
    unfold bind. fold st1. rewrite E2. destruct S2 as (I2 & LO2 & PE3).
    destruct (IH (N ++ L) (q :: D) st2) as (st' & L' & A1 & A2 & A3 & A4 & A5 & A6); auto.
    + rewrite PE3, <- app_assoc. apply Permutation_app_head. rewrite <- PE2. symmetry. apply Permutation_middle.
    + intros o Ho So. unfold ats. rewrite map_app, in_app_iff. right. now apply HO.
    + intros p [<-|Hp]; [exact C2|]. apply (closed_mono L); [intros; apply in_app_iff; now right|now apply HC].
    + cbn [List.length]. lia.
    + exists st', L'. split; [exact A1|]. split; [auto|]. split; [auto|]. split; [auto|]. split; [|auto].
      intros p Hp. apply A5, in_app_iff. now right.
Qed.

Theorem fire_final q0 : pq_wf PS q0 -> pq_items PS q0 = [] ->
  exists st L, bind (scan P c ls ld (fst (size m0)) (snd (size m0)))
     (fun _ => brushfire P c ls ld (size m0) (Z.to_nat (fst (size m0) * snd (size m0))))
     (IState m0 (mconst (fst (size m0)) (snd (size m0)) 0) q0) = Ret tt st /\
   Inv L st /\ l1_ok L /\ pq_items PS (is_queue st) = [] /\
   (forall o, in_range (size m0) o -> sv o = lethal -> In o (ats L)) /\ (forall p, In p L -> closed L p).
Proof.
  intros W Q0. destruct R0 as (RR & S0 & S1). set (st0 := IState m0 (mconst (fst (size m0)) (snd (size m0)) 0) q0).
  assert (I0 : Inv [] st0).
  { constructor; cbn [is_map is_seen is_queue st0]; auto.
    - constructor.
    - intros q [].
    - split; [now apply wf_mconst|]. split; reflexivity.
    - intros i [A B]. exists 0. split; [now apply mget_mconst|]. split; auto.
    - now apply cells_refl.
    - intros q []. }
  destruct (scan_ok st0 I0 Q0) as (st1 & L1 & E1 & I1 & P1 & HS & HO).
  assert (LO1 : l1_ok L1).
  { intros q o Hq Ho So D. destruct (i_cell _ _ I1 q Hq) as (_ & _ & _ & B3 & _). rewrite B3, (HS q Hq).
    eapply Qle_trans with (inject_Z 0); [|rewrite <- Zle_Qle; unfold d1; lia]. apply dd_d2; try lia. unfold d2. lia. }
  destruct (brushfire_ok (Z.to_nat (fst (size m0) * snd (size m0))) L1 [] st1) as (st' & L' & A1 & A2 & A3 & A4 & A5 & A6); auto.
  - now rewrite app_nil_r.
  - intros p [].
  - unfold bind. rewrite E1. exists st', L'. split; [exact A1|]. split; [auto|]. split; [auto|]. split; [auto|]. split; [|auto].
    intros o Ho So. specialize (HO o Ho So). apply in_map_iff in HO as (p & <- & Hp). apply in_map. auto.
Qed.
End Brushfire.
