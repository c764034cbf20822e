(** Inflation onto the source layer, in lockstep with inflation into another one. *)
From Coq Require Import ZArith QArith Qround String List Bool Lia Lqa.
From Verif Require Import Base Mat GridIter CostMap Inflation Spec InflationSpec BaseLemmas GeoLemmas CoreProofs CoreProofs2 CoreFinal MoveProofs AddDataProofs InflateProofs InflateFinal.
Import ListNotations.
Open Scope Z_scope.

Lemma at_set_eff l i v m m' : reg_ok' m -> at_set l i v m = Ret tt m' ->
  cells m m' /\ forall l' i', at_ m' l' i' = if (l' =? l)%string && idx_eqb i' i then Ok v else at_ m l' i'.
Proof.
  intros R H. assert (HL : has_layer m l).
  { unfold at_set in H. destruct (aget (data m) l) as [d|] eqn:D; [|discriminate]. now exists d. }
  assert (HI : in_range (size m) i).
  { unfold at_set in H. destruct HL as [d D]. rewrite D in H. destruct (mset d (fst i) (snd i) v) as [d'|] eqn:S; [|discriminate].
    destruct (r_mat _ (proj1 R) _ _ D) as (W & R1 & R2). apply mset_spec in S; auto. rewrite R1, R2 in S. apply S. }
  destruct (at_set_cells l i v m R HL HI) as (m2 & H2 & C & A). rewrite H in H2. injection H2 as <-. auto.
Qed.

Section Alias.
Context (P : pqueue) (c : cache) (ls ld : string) (N : ls <> ld).

(** [s1] inflates ls onto itself, [s2] into ld. *)
Record Sim (s1 s2 : istate P) : Prop :=
  { s_seen : is_seen s1 = is_seen s2;
    s_wf : wf_mat (is_seen s1);
    s_queue : is_queue s1 = is_queue s2;
    s_reg1 : reg_ok' (is_map s1);
    s_reg2 : reg_ok' (is_map s2);
    s_dest : forall i, at_ (is_map s1) ls i = at_ (is_map s2) ld i;
    s_src : forall i, mget (is_seen s1) (fst i) (snd i) = Some 0 -> at_ (is_map s1) ls i = at_ (is_map s2) ls i }.

Definition lockstep (f1 f2 : M (istate P) unit) : Prop :=
  forall s1 s2 s1' s2', Sim s1 s2 -> f1 s1 = Ret tt s1' -> f2 s2 = Ret tt s2' -> Sim s1' s2'.

Lemma sim_skip s1 s2 s1' s2' : Sim s1 s2 -> @Ret (istate P) unit tt s1 = Ret tt s1' -> @Ret (istate P) unit tt s2 = Ret tt s2' -> Sim s1' s2'.
Proof. intros S A B. injection A as <-. injection B as <-. exact S. Qed.

Lemma sim_enqueue n s : lockstep (enqueue P c ls ls n s) (enqueue P c ls ld n s).
Proof.
  intros s1 s2 s1' s2' S. unfold enqueue. rewrite <- (s_seen _ _ S), <- (s_queue _ _ S).
  destruct (mget (is_seen s1) (fst n) (snd n)) as [b|] eqn:B; [|discriminate].
  destruct (Z.eqb_spec b 0) as [->|NB]; [|apply sim_skip; auto].
  destruct (lookup c (c_dist c) n s) as [d| |]; try discriminate.
  destruct (Qlt_bool (inject_Z (c_rad c)) d); [apply sim_skip; auto|].
  rewrite <- (s_src _ _ S n B).
  destruct (lookup c (c_cost c) n s) as [v| |], (at_ (is_map s1) ls n) as [old| |]; try discriminate.
  destruct (mset (is_seen s1) (fst n) (snd n) 1) as [seen'|] eqn:SE; [|destruct (at_set ls n (combine old v) (is_map s1)); discriminate].
  destruct (at_set ls n (combine old v) (is_map s1)) as [[] m1| |] eqn:A1; try discriminate.
  destruct (at_set ld n (combine old v) (is_map s2)) as [[] m2| |] eqn:A2; try discriminate.
  intros H1 H2. injection H1 as <-. injection H2 as <-.
  apply at_set_eff in A1 as [C1 A1]; [|apply (s_reg1 _ _ S)]. apply at_set_eff in A2 as [C2 A2]; [|apply (s_reg2 _ _ S)].
  pose proof (mset_spec _ _ _ _ _ (s_wf _ _ S) SE) as (_ & W' & _ & _ & G).
  constructor; cbn [is_seen is_queue is_map]; auto; [apply C1|apply C2| |].
  - intros i. rewrite A1, A2, !String.eqb_refl. cbn [andb]. destruct (idx_eqb i n); [reflexivity|apply (s_dest _ _ S)].
  - intros i HI. rewrite G in HI. rewrite A1, A2, String.eqb_refl. assert ((ls =? ld)%string = false) as -> by (now apply String.eqb_neq).
    cbn [andb]. unfold idx_eqb. destruct ((fst i =? fst n) && (snd i =? snd n)); [discriminate|]. now apply (s_src _ _ S).
Qed.

Lemma sim_mfor {A} (b1 b2 : A -> M (istate P) unit) : (forall a, lockstep (b1 a) (b2 a)) -> forall l, lockstep (mfor l b1) (mfor l b2).
Proof.
  intros HB. induction l as [|a l IH]; intros s1 s2 s1' s2' S; cbn; [apply sim_skip; auto|].
  destruct (b1 a s1) as [[] t1| |] eqn:B1; try discriminate. destruct (b2 a s2) as [[] t2| |] eqn:B2; try discriminate.
  apply IH. eapply HB; eauto.
Qed.

Lemma sim_bind f1 f2 g1 g2 : lockstep f1 f2 -> lockstep g1 g2 -> lockstep (bind f1 (fun _ => g1)) (bind f2 (fun _ => g2)).
Proof.
  intros HF HG s1 s2 s1' s2' S. unfold bind.
  destruct (f1 s1) as [[] t1| |] eqn:B1; try discriminate. destruct (f2 s2) as [[] t2| |] eqn:B2; try discriminate.
  apply HG. eapply HF; eauto.
Qed.

(** A cell that is seen is left alone. *)
Lemma enqueue_seen l n s st st' : mget (is_seen st) (fst n) (snd n) <> Some 0 ->
  enqueue P c ls l n s st = Ret tt st' -> st' = st.
Proof.
  intros B. unfold enqueue. destruct (mget (is_seen st) (fst n) (snd n)) as [b|]; [|discriminate].
  destruct (Z.eqb_spec b 0) as [->|]; [contradiction|]. intros H. injection H as <-. reflexivity.
Qed.

Lemma sim_scan rows cols : lockstep (scan P c ls ls rows cols) (scan P c ls ld rows cols).
Proof.
  unfold scan. apply sim_mfor. intros j. apply sim_mfor. intros i s1 s2 s1' s2' S.
  assert (D : {mget (is_seen s1) i j = Some 0} + {mget (is_seen s1) i j <> Some 0}).
  { destruct (mget (is_seen s1) i j) as [b|]; [|right; discriminate]. destruct (Z.eq_dec b 0) as [->|]; [now left|right; congruence]. }
  destruct D as [B|B].
  - rewrite <- (s_src _ _ S (i, j) B). destruct (at_ (is_map s1) ls (i, j)) as [v| |]; try discriminate.
    destruct (v =? LETHAL_OBSTACLE); [|apply sim_skip; auto]. now apply sim_enqueue.
  - intros H1 H2. assert (s1' = s1) as ->.
    { destruct (at_ (is_map s1) ls (i, j)) as [v| |]; try discriminate. destruct (v =? LETHAL_OBSTACLE); [|congruence].
      apply (enqueue_seen ls (i, j) (i, j)); auto. }
    assert (s2' = s2) as ->.
    { destruct (at_ (is_map s2) ls (i, j)) as [v| |]; try discriminate. destruct (v =? LETHAL_OBSTACLE); [|congruence].
      apply (enqueue_seen ld (i, j) (i, j)); [|exact H2]. cbn. now rewrite <- (s_seen _ _ S). }
    exact S.
Qed.

Lemma sim_if (b : bool) f1 f2 : lockstep f1 f2 -> lockstep (if b then f1 else ret tt) (if b then f2 else ret tt).
Proof. intros H. destruct b; [exact H|]. intros s1 s2 s1' s2' S. now apply sim_skip. Qed.

Lemma sim_spread sz q : lockstep (spread P c ls ls sz q) (spread P c ls ld sz q).
Proof. unfold spread. repeat apply sim_bind; apply sim_if, sim_enqueue. Qed.

Lemma sim_brushfire sz : forall f, lockstep (brushfire P c ls ls sz f) (brushfire P c ls ld sz f).
Proof.
  induction f as [|f IH]; intros s1 s2 s1' s2' S; cbn [brushfire]; rewrite <- (s_queue _ _ S);
    destruct (pq_pop P (is_queue s1)) as [[q rest]|]; try discriminate; try (now apply sim_skip).
  apply sim_bind; [apply sim_spread|exact IH|]. destruct S. constructor; cbn [is_seen is_queue is_map]; auto.
Qed.
End Alias.

Lemma inflate_alias {E : Env} F P ls ld rad comp o m o1 m1 o2 m2 : reg_ok' m -> ls <> ld ->
  inflate F P ls ls rad comp o m = Ret o1 m1 -> inflate F P ls ld rad comp o m = Ret o2 m2 ->
  o1 = o2 /\ forall i, at_ m1 ls i = at_ m2 ld i.
Proof.
  intros R N. unfold inflate. destruct (get m ls) as [src| |] eqn:G; try discriminate. apply get_has in G.
  destruct (r_mat _ (proj1 R) _ _ G) as (W & S1 & S2).
  destruct (add_ok ls src m S1 S2) as (a1 & A1 & A2 & A3 & A4 & A5 & A6).
  destruct (add_ok ld src m S1 S2) as (b1 & B1 & B2 & B3 & B4 & B5 & B6).
  rewrite A1, B1.
  assert (RA : reg_ok' a1). { pose proof (pres_add' ls src W m R) as PA. rewrite A1 in PA. exact PA. }
  assert (RB : reg_ok' b1). { pose proof (pres_add' ld src W m R) as PA. rewrite B1 in PA. exact PA. }
  assert (Ra : resn a1 = resn m) by (now destruct A4 as (_ & _ & _ & _ & -> & _)).
  assert (Rb : resn b1 = resn m) by (now destruct B4 as (_ & _ & _ & _ & -> & _)).
  rewrite (cell_radius_resn rad m a1 Ra), (cell_radius_resn rad m b1 Rb), Ra, Rb.
  destruct (rbind (cell_radius rad m) _) as [c| |]; try discriminate.
  set (st1 := IState a1 _ _). set (st2 := IState b1 _ _).
  assert (GB : get b1 ls = Ok src). { rewrite B3 by auto. unfold get. now rewrite G. }
  apply get_has in A2, B2, GB.
  assert (S0 : Sim P ls ld st1 st2).
  { constructor; cbn [st1 st2 is_seen is_queue is_map]; auto.
    - apply wf_mconst; apply R.
    - intros i. unfold at_. now rewrite A2, B2.
    - intros i _. unfold at_. now rewrite A2, GB. }
  pose proof (sim_bind P ls ld _ _ _ _ (sim_scan P c ls ld N (mrows src) (mcols src)) (sim_brushfire P c ls ld N (size m) (Z.to_nat (fst (size m) * snd (size m)))) st1 st2) as L.
  destruct (bind (scan P c ls ls _ _) _ st1) as [[] t1| |]; try discriminate.
  destruct (bind (scan P c ls ld _ _) _ st2) as [[] t2| |]; try discriminate.
  intros H1 H2. injection H1 as <- <-. injection H2 as <- <-. specialize (L t1 t2 S0 eq_refl eq_refl).
  split; [now rewrite (s_queue _ _ _ _ _ L)|]. apply (s_dest _ _ _ _ _ L).
Qed.
