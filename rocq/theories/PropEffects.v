(** Property C87: when a cost computer is called, and with what. *)
From Coq Require Import ZArith QArith String List Bool Lia Sorted.
From Verif Require Import Base Mat GridMapMath GridIter CostMap Inflation Throwing Effects Spec InflationSpec BaseLemmas CoreProofs CoreProofs2 CoreFinal MoveProofs AddDataProofs InflateProofs InflateFinal InflateEnv Samples PropInflate PropThrow.
Import ListNotations.
Open Scope Z_scope.

(** ** Specification *)

(** Calls of a computer one after the other: arguments and answers, and the states
    before the first and after the last. *)
Inductive runs {S} (comp : S -> Q -> S * option Z) : S -> list (Q * option Z) -> S -> Prop :=
| runs_none s : runs comp s [] s
| runs_call s d s1 a calls s2 : comp s d = (s1, a) -> runs comp s1 calls s2 -> runs comp s ((d, a) :: calls) s2.

(** The calls for a radius of r cells: one for each offset (i, j) up to r + 1, row by row,
    with its distance in metres. *)
Definition call_at (F : fenv) (q : Q) (r : Z) (k : nat) (d : Q) : Prop :=
  exists i j, 0 <= i < r + 2 /\ 0 <= j < r + 2 /\ Z.of_nat k = i * (r + 2) + j /\ d = metres F q i j.

(** What can be seen of the end of a call. *)
Definition seen {P} (x : ending P) : out cmap bool :=
  match x with Done _ m => Ret true m | Thrown _ m => Ret false m | Missing e _ m => Exn e m | Undefined f => Flt f end.

(** ** The loops *)

Lemma tset_same t e v : tset t e v (fst e) (snd e) = v.
Proof. unfold tset. now rewrite !Z.eqb_refl. Qed.
Lemma tset_other t e v i j : (i, j) <> e -> tset t e v i j = t i j.
Proof.
  intros N. unfold tset. destruct (Z.eqb_spec i (fst e)), (Z.eqb_spec j (snd e)); cbn; auto. destruct e. cbn in *. congruence.
Qed.

Lemma fill_runs {S} (F : fenv) q (comp : S -> Q -> S * option Z) es : forall t s t' b s', NoDup es -> fill F q comp es t s = (t', b, s') ->
  exists calls, runs comp s calls s' /\
    (forall k d a, nth_error calls k = Some (d, a) -> exists e, nth_error es k = Some e /\ d = f32 F (q * hyp F (fst e) (snd e)) /\
       (forall v, a = Some v -> t' (fst e) (snd e) = v) /\ (a = None -> b = false /\ length calls = Datatypes.S k)) /\
    (if b then length calls = length es /\ forall d a, In (d, a) calls -> a <> None
     else exists d, In (d, None) calls) /\
    (forall i j, ~ In (i, j) es -> t' i j = t i j).
Proof.
  induction es as [|e es IH]; intros t s t' b s' ND H; cbn [fill] in H.
  - injection H as <- <- <-. exists []. split; [constructor|]. split; [intros [|k]; discriminate|]. split; auto.
  - inversion ND as [|? ? N1 N2]; subst. destruct (comp s (f32 F (q * hyp F (fst e) (snd e)))) as [s1 [v|]] eqn:CA.
    + destruct (IH _ _ _ _ _ N2 H) as (calls & R & K & B & T). exists ((f32 F (q * hyp F (fst e) (snd e)), Some v) :: calls).
      split; [econstructor; eauto|]. split; [|split].
      * intros [|k] d a N; cbn [nth_error] in *.
        -- injection N as <- <-. exists e. split; auto. split; auto. split; [|discriminate]. intros w W. injection W as <-.
           rewrite T; [apply tset_same|]. now rewrite <- surjective_pairing.
        -- destruct (K k d a N) as (e' & I & D & V & L). exists e'. split; auto. split; auto. split; auto. intros Z. destruct (L Z). split; auto. cbn. congruence.
      * destruct b.
        -- destruct B as (L & B). split; [cbn; congruence|]. intros d a [Z|I]; [injection Z as <- <-; discriminate|eauto].
        -- destruct B as (d & I). exists d. now right.
      * intros i j N. rewrite T by (intros I; apply N; now right). apply tset_other. intros <-. apply N. now left.
    + injection H as <- <- <-. exists [(f32 F (q * hyp F (fst e) (snd e)), None)]. split; [econstructor; eauto; constructor|].
      split; [|split; [|auto]].
      * intros [|k] d a N; cbn [nth_error] in *; [|destruct k; discriminate]. injection N as <- <-. exists e. split; auto. split; auto. split; [discriminate|auto].
      * exists (f32 F (q * hyp F (fst e) (snd e))). now left.
Qed.

Lemma sorted_NoDup l : StronglySorted in_turn l -> NoDup l.
Proof.
  induction 1 as [|a l S IH FA]; constructor; auto. intros I. rewrite Forall_forall in FA. specialize (FA a I). unfold in_turn in FA.
  apply earlier_spec in FA. lia.
Qed.

(** The k-th entry. *)
Lemma nth_block (n : Z) (k : nat) : forall b i c, 0 <= i - b < Z.of_nat k -> 0 <= c < n ->
  nth_error (flat_map (fun x => map (fun j => (x, j)) (zseq n)) (zseq_aux b k)) (Z.to_nat ((i - b) * n + c)) = Some (i, c).
Proof.
  induction k as [|k IH]; intros b i c Hi Hc; [lia|]. cbn [zseq_aux flat_map].
  assert (LZ : forall m b, length (zseq_aux b m) = m) by (induction m; intros; cbn; auto).
  assert (L : length (map (fun j => (b, j)) (zseq n)) = Z.to_nat n) by (rewrite map_length; apply LZ).
  destruct (Z.eq_dec i b) as [->|N].
  - rewrite nth_error_app1 by (rewrite L; nia). rewrite nth_error_map. unfold zseq.
    assert (G : forall m b k, (k < m)%nat -> nth_error (zseq_aux b m) k = Some (b + Z.of_nat k)).
    { induction m; intros b' k' Hk; [lia|]. destruct k'; cbn; [f_equal; lia|]. rewrite IHm by lia. f_equal. lia. }
    rewrite G by nia. cbn. f_equal. f_equal. nia.
  - rewrite nth_error_app2 by (rewrite L; nia). rewrite L.
    replace (Z.to_nat ((i - b) * n + c) - Z.to_nat n)%nat with (Z.to_nat ((i - (b + 1)) * n + c)) by nia. apply IH; auto. lia.
Qed.
Lemma nth_entries r i j : 0 <= i < r + 2 -> 0 <= j < r + 2 -> nth_error (entries r) (Z.to_nat (i * (r + 2) + j)) = Some (i, j).
Proof. intros Hi Hj. unfold entries, zseq at 2. replace (i * (r + 2) + j) with ((i - 0) * (r + 2) + j) by lia. apply nth_block; lia. Qed.

Lemma entries_length r : 0 <= r -> length (entries r) = Z.to_nat ((r + 2) * (r + 2)).
Proof.
  intros R0. unfold entries. assert (LZ : forall m b, length (zseq_aux b m) = m) by (induction m; intros; cbn; auto).
  assert (G : forall l : list Z, length (flat_map (fun i => map (fun j => (i, j)) (zseq (r + 2))) l) = (length l * Z.to_nat (r + 2))%nat).
  { induction l; cbn; auto. rewrite app_length, map_length, IHl. unfold zseq. rewrite LZ. lia. }
  rewrite G. unfold zseq. rewrite LZ. nia.
Qed.

Lemma entries_nth r k e : 0 <= r -> nth_error (entries r) k = Some e -> exists i j, 0 <= i < r + 2 /\ 0 <= j < r + 2 /\ Z.of_nat k = i * (r + 2) + j /\ e = (i, j).
Proof.
  intros R0 H. assert (K : (k < length (entries r))%nat) by (apply nth_error_Some; congruence). rewrite entries_length in K by auto.
  exists (Z.of_nat k / (r + 2)), (Z.of_nat k mod (r + 2)).
  pose proof (Z.div_mod (Z.of_nat k) (r + 2) ltac:(lia)). pose proof (Z.mod_pos_bound (Z.of_nat k) (r + 2) ltac:(lia)).
  assert (0 <= Z.of_nat k / (r + 2) < r + 2). { split; [apply Z.div_pos; lia|]. apply Z.div_lt_upper_bound; nia. }
  split; auto. split; auto. split; [lia|].
  pose proof (nth_entries r _ _ H2 H1) as N. replace (Z.to_nat (Z.of_nat k / (r + 2) * (r + 2) + Z.of_nat k mod (r + 2))) with k in N by lia. congruence.
Qed.

(** ** Equal tables give equal runs *)

Definition alike (c c' : cache) : Prop :=
  c_rad c = c_rad c' /\ c_dim c = c_dim c' /\ c_dist c = c_dist c' /\
  forall i j, 0 <= i < c_dim c -> 0 <= j < c_dim c -> c_cost c i j = c_cost c' i j.

Lemma alike_enqueue P c c' : alike c c' -> forall ls ld n s st, enqueue P c ls ld n s st = enqueue P c' ls ld n s st.
Proof.
  intros (A & B & D & K) ls ld n s st. unfold enqueue. destruct (mget _ _ _) as [b|]; auto. destruct (b =? 0); auto.
  assert (L1 : lookup c (c_dist c) n s = lookup c' (c_dist c') n s) by (unfold lookup; now rewrite B, D).
  assert (L2 : lookup c (c_cost c) n s = lookup c' (c_cost c') n s).
  { unfold lookup. rewrite <- B. destruct (Z.abs (fst n - fst s) <? c_dim c) eqn:X1; cbn [andb]; auto.
    destruct (Z.abs (snd n - snd s) <? c_dim c) eqn:X2; auto. f_equal. apply K; lia. }
  now rewrite L1, L2, A.
Qed.

Lemma mfor_same {A St} (f g : A -> M St unit) l : (forall x s, f x s = g x s) -> forall s, mfor l f s = mfor l g s.
Proof. intros H. induction l as [|x t IH]; intros s; cbn [mfor]; auto. unfold bind. rewrite H. destruct (g x s); auto. Qed.

Lemma alike_scan P c c' : alike c c' -> forall ls ld rows cols st, scan P c ls ld rows cols st = scan P c' ls ld rows cols st.
Proof.
  intros A ls ld rows cols st. unfold scan. apply mfor_same. intros j s. apply mfor_same. intros i s'.
  destruct (at_ _ _ _); auto. destruct (_ =? _); auto. now apply alike_enqueue.
Qed.

Lemma bind_same {St A B} (x y : M St A) (f g : A -> M St B) : (forall s, x s = y s) -> (forall a s, f a s = g a s) -> forall s, bind x f s = bind y g s.
Proof. intros H K s. unfold bind. rewrite H. destruct (y s); auto. Qed.

Lemma alike_spread P c c' : alike c c' -> forall ls ld sz q st, spread P c ls ld sz q st = spread P c' ls ld sz q st.
Proof.
  intros A ls ld sz q. unfold spread.
  assert (G : forall (b : bool) n s st, (if b then enqueue P c ls ld n s else ret tt) st = (if b then enqueue P c' ls ld n s else ret tt) st).
  { intros [|] n s st; auto. now apply alike_enqueue. }
  intros st. apply bind_same; [intros; apply G|]. intros _. intros s1. apply bind_same; [intros; apply G|]. intros _.
  intros s2. apply bind_same; [intros; apply G|]. intros _. intros; apply G.
Qed.

Lemma alike_brushfire P c c' : alike c c' -> forall ls ld sz fuel st, brushfire P c ls ld sz fuel st = brushfire P c' ls ld sz fuel st.
Proof.
  intros A ls ld sz. induction fuel as [|f IH]; intros st; cbn [brushfire]; auto.
  destruct (pq_pop P (is_queue st)) as [[q rest]|]; auto. apply bind_same; [now apply alike_spread|intros _; apply IH].
Qed.

(** ** C87 *)

(** Without a change of radius, or without the source layer, the computer is not called. *)
Theorem C87_not_called : forall (E : Env) F P S g ls ld rad (comp : S -> Q -> S * option Z) (o : inflater P) m s,
  ~ has_layer m ls \/ cell_radius rad m = Ok (c_rad (if_cache o)) -> snd (inflate_s F P g ls ld rad comp o m s) = s.
Proof.
  intros E F P S g ls ld rad comp o m s H. unfold inflate_s. destruct (get m ls) as [src| |] eqn:G; auto.
  destruct (add ld src m) as [u m1| |] eqn:A; auto.
  assert (RS : resn m1 = resn m).
  { unfold add in A. destruct (negb _); [discriminate|]. destruct (exists_layer m ld); injection A as <- <-; reflexivity. }
  destruct H as [H|CR].
  - exfalso. apply H. unfold get in G. unfold has_layer. destruct (aget (data m) ls) as [d|] eqn:D; [eauto|discriminate].
  - rewrite (cell_radius_resn rad m m1 RS), CR. cbn [rbind]. now rewrite Z.eqb_refl.
Qed.
Print Assumptions C87_not_called.

(** With a new radius it is called once for each offset, until it throws; the costs
    around a single obstacle are its answers. *)
Theorem C87_calls : forall (E : Env) F P (PS : pq_spec P) S g ls ld rad (comp : S -> Q -> S * option Z) o x m r s b,
  used F P o x -> reg_ok' m -> cell_radius rad m = Ok r -> r < 2 ^ 32 - 2 -> dist_ok (hyp F) r ->
  (forall r0 q0 c0, x = Some (r0, q0, c0) -> r0 <> r) -> (forall c, value_at m ls c lethal <-> c = b) ->
  exists calls s', runs comp s calls s' /\
    (forall k d a, nth_error calls k = Some (d, a) -> call_at F (resn m) r k d) /\
    ((exists pre d, calls = pre ++ [(d, None)] /\ (forall d' a, In (d', a) pre -> a <> None) /\
        exists o' m', inflate_s F P g ls ld rad comp o m s = (Thrown o' m', s')) \/
     Z.of_nat (length calls) = (r + 2) * (r + 2) /\ (forall d a, In (d, a) calls -> a <> None) /\
        exists o' m', inflate_s F P g ls ld rad comp o m s = (Done o' m', s') /\
          forall i v, value_at m ls i v ->
            (d2 i b <= r * r -> exists d w, nth_error calls (Z.to_nat (Z.abs (fst i - fst b) * (r + 2) + Z.abs (snd i - snd b))) = Some (d, Some w) /\
                                  value_at m' ld i (inflated v w)) /\
            (r * r < d2 i b -> value_at m' ld i v)).
Proof.
  intros E F P PS S g ls ld rad comp o x m r s b U R CR SM HD NX ON.
  pose proof (cell_radius_nonneg _ _ _ CR) as R0.
  assert (HL : has_layer m ls). { destruct (proj2 (ON b) eq_refl) as (d & D & _). now exists d. }
  destruct HL as [src Hsrc]. destruct (r_mat _ (proj1 R) _ _ Hsrc) as (Ws & S1 & S2).
  destruct (add_ok ld src m S1 S2) as (m1 & A1 & A2 & A3 & A4 & A5 & A6).
  assert (RS : resn m1 = resn m) by (now destruct A4 as (_ & _ & _ & _ & -> & _)).
  pose proof (used_holds F P PS _ _ U) as (W & Q0 & HC).
  assert (NR : (r =? c_rad (if_cache o)) = false).
  { apply Z.eqb_neq. destruct x as [[[r0 q0] c0]|].
    - destruct HC as (_ & ->). cbn. intros ->. now apply (NX r0 q0 c0).
    - subst o. cbn. lia. }
  destruct (fill F (f32 F (resn m)) comp (entries r) g s) as [[t fin] s'] eqn:FI.
  destruct (fill_runs F _ comp (entries r) g s t fin s' (sorted_NoDup _ (entries_sorted r)) FI) as (calls & RU & K & B & _).
  exists calls, s'. split; auto. split.
  { intros k d a N. destruct (K k d a N) as (e & I & D & _). destruct (entries_nth r k e R0 I) as (i & j & Hi & Hj & Hk & ->).
    exists i, j. auto. }
  assert (CC : compute_caches_s F g r (f32 F (resn m)) comp s = Ok (Cache r (r + 2) (hyp F) t, fin, s')).
  { unfold compute_caches_s. rewrite !Z.mod_small by lia. assert ((r + 1 <? r + 2) = true) as -> by lia. now rewrite FI. }
  destruct fin.
  - right. destruct B as (L & B). split; [rewrite L, entries_length by auto; nia|]. split; auto.
    set (o' := Inflater (P := P) (Cache r (r + 2) (hyp F) t) (if_queue o)).
    destruct (inflate_tables F P PS o' ls ld rad (fun _ => 0) m r t) as (o2 & m3 & hit & RUN & O); auto; [now exists src|cbn; now rewrite Z.eqb_refl|].
    exists o2, m3. split.
    + unfold inflate_s. unfold get at 1. rewrite Hsrc, A1, (cell_radius_resn rad m m1 RS), CR. cbn [rbind]. rewrite NR, RS, CC.
      unfold inflate in RUN. unfold get at 1 in RUN. rewrite Hsrc, A1, (cell_radius_resn rad m m1 RS), CR in RUN. cbn [rbind if_cache o' c_rad] in RUN. rewrite Z.eqb_refl in RUN.
      cbn [if_queue o'] in RUN. destruct (bind _ _ _) as [u st| |]; try discriminate. now injection RUN as <- <-.
    + intros i v V. pose proof (outcome_single r t ls ld m m3 hit O R b i v ON V) as H. unfold at_offset in H. split; intros D.
      * destruct (Z_le_gt_dec (d2 i b) (r * r)); [|lia].
        assert (AB : 0 <= Z.abs (fst i - fst b) <= r /\ 0 <= Z.abs (snd i - snd b) <= r). { unfold d2 in D. split; split; try lia; nia. }
        pose proof (nth_entries r (Z.abs (fst i - fst b)) (Z.abs (snd i - snd b)) ltac:(lia) ltac:(lia)) as NE.
        set (k := Z.to_nat _) in *. assert (KL : (k < length calls)%nat) by (rewrite L; apply nth_error_Some; congruence).
        destruct (nth_error calls k) as [[d [w|]]|] eqn:NC; [|exfalso; apply nth_error_In in NC; now apply (B d None NC)|apply nth_error_None in NC; lia].
        exists d, w. split; auto. destruct (K k d (Some w) NC) as (e & I & _ & V2 & _). rewrite NE in I. injection I as <-. cbn [fst snd] in V2.
        now rewrite (V2 w eq_refl) in H.
      * destruct (Z_le_gt_dec (d2 i b) (r * r)); [lia|]. exact H.
  - left. destruct B as (d & I). apply In_nth_error in I as (k & NC). destruct (K k d None NC) as (_ & _ & _ & _ & L). destruct (L eq_refl) as (_ & LN).
    apply nth_error_split in NC as (pre & post & -> & LP). rewrite app_length in LN. cbn [length] in LN.
    assert (post = []) as -> by (destruct post; auto; cbn in LN; lia).
    exists pre, d. split; auto. split.
    { intros d' a Ia Z. subst a. apply In_nth_error in Ia as (k' & NC'). assert (k' < length pre)%nat by (apply nth_error_Some; congruence).
      destruct (K k' d' None) as (_ & _ & _ & _ & L'); [rewrite nth_error_app1; auto|]. destruct (L' eq_refl) as (_ & LN'). rewrite app_length in LN'. cbn in LN'. lia. }
    exists (Inflater (Cache r (r + 2) (hyp F) t) (if_queue o)), m1.
    unfold inflate_s. unfold get at 1. rewrite Hsrc, A1, (cell_radius_resn rad m m1 RS), CR. cbn [rbind]. now rewrite NR, RS, CC.
Qed.
Print Assumptions C87_calls.

(** A computer whose answers do not depend on its state: as in C85, and so as in C36-C43. *)
Theorem C87_stateless : forall (E : Env) F P S g ls ld rad (comp : S -> Q -> S * option Z) f (o : inflater P) m s,
  (forall s d, snd (comp s d) = f d) -> seen (fst (inflate_s F P g ls ld rad comp o m s)) = seen (inflate' F P g ls ld rad f o m).
Proof.
  intros E F P S g ls ld rad comp f o m s H. unfold inflate_s, inflate'. destruct (get m ls) as [src| |]; auto.
  destruct (add ld src m) as [u m1| |]; auto. destruct (cell_radius rad m1) as [r| |] eqn:CR; cbn [rbind]; auto.
  pose proof (cell_radius_nonneg _ _ _ CR) as R0.
  destruct (r =? c_rad (if_cache o)); [destruct (bind _ _ _); auto|].
  unfold compute_caches_s, compute_caches'. destruct ((r + 1) mod 2 ^ 32 <? (r + 2) mod 2 ^ 32) eqn:DM; auto.
  set (q := f32 F (resn m1)).
  set (thr := fun e : idx => match f (f32 F (q * hyp F (fst e) (snd e))) with Some _ => false | None => true end).
  assert (G : forall es t s, NoDup es -> StronglySorted in_turn es -> let '(t', fin, _) := fill F q comp es t s in
    match find thr es with
    | None => fin = true /\ forall e, In e es -> Some (t' (fst e) (snd e)) = f (f32 F (q * hyp F (fst e) (snd e)))
    | Some e0 => fin = false /\ forall e, In e es -> if earlier e e0 then Some (t' (fst e) (snd e)) = f (f32 F (q * hyp F (fst e) (snd e))) else t' (fst e) (snd e) = t (fst e) (snd e)
    end /\ forall i j, ~ In (i, j) es -> t' i j = t i j).
  { induction es as [|e es IH]; intros t s0 ND SO; cbn [fill find]; [repeat split; easy|].
    inversion ND as [|? ? N1 N2]; subst. inversion SO as [|? ? S1 S2]; subst. specialize (H s0 (f32 F (q * hyp F (fst e) (snd e)))).
    destruct (comp s0 (f32 F (q * hyp F (fst e) (snd e)))) as [s1 a]. cbn [snd] in H. subst a. unfold thr at 1.
    destruct (f (f32 F (q * hyp F (fst e) (snd e)))) as [v|] eqn:FV.
    - specialize (IH (tset t e v) s1 N2 S1). destruct (fill F q comp es (tset t e v) s1) as [[t' fin] s2]. destruct IH as (IH & T).
      assert (TE : t' (fst e) (snd e) = v) by (rewrite T; [apply tset_same|now rewrite <- surjective_pairing]).
      split.
      + destruct (find thr es) as [e0|] eqn:FE.
        * destruct IH as (-> & IH). split; auto. intros e' [<-|I].
          -- apply find_some in FE as (I0 & _). rewrite Forall_forall in S2. specialize (S2 e0 I0). unfold in_turn in S2. now rewrite S2, TE, FV.
          -- specialize (IH e' I). destruct (earlier e' e0); auto. rewrite IH. apply tset_other. intros <-. rewrite <- surjective_pairing in N1. contradiction.
        * destruct IH as (-> & IH). split; auto. intros e' [<-|I]; auto. now rewrite TE, FV.
      + intros i j N. rewrite T by (intros I; apply N; now right). apply tset_other. intros <-. apply N. now left.
    - split; auto. split; auto. intros e' I. destruct (earlier e' e) eqn:EE; auto. exfalso. apply earlier_spec in EE.
      destruct I as [<-|I]; [lia|]. rewrite Forall_forall in S2. specialize (S2 e' I). unfold in_turn in S2. apply earlier_spec in S2. lia. }
  specialize (G (entries r) g s (sorted_NoDup _ (entries_sorted r)) (entries_sorted r)).
  destruct (fill F q comp (entries r) g s) as [[t fin] s'] eqn:FI. destruct G as (G & _).
  match goal with |- context [find ?p (entries r)] => change (find p (entries r)) with (find thr (entries r)) end.
  destruct (find thr (entries r)) as [e0|].
  - destruct G as (-> & _). reflexivity.
  - destruct G as (-> & G). cbn [fst].
    set (cost := fun i j => match f (f32 F (q * hyp F i j)) with Some v => v | None => 0 end).
    set (c := Cache r ((r + 2) mod 2 ^ 32) (hyp F) t). set (c' := Cache r ((r + 2) mod 2 ^ 32) (hyp F) cost).
    assert (AL : alike c c').
    { split; auto. split; auto. split; auto. intros i j Hi Hj. unfold c in Hi, Hj. unfold c, c', cost. cbn [c_cost c_dim] in *.
      assert ((r + 2) mod 2 ^ 32 <= r + 2) by (apply Z.mod_le; lia).
      specialize (G (i, j)). rewrite In_entries in G. cbn [fst snd] in G. rewrite <- G by lia. reflexivity. }
    assert (BB : forall st, bind (scan P c ls ld (mrows src) (mcols src)) (fun _ => brushfire P c ls ld (size m) (Z.to_nat (fst (size m) * snd (size m)))) st =
                            bind (scan P c' ls ld (mrows src) (mcols src)) (fun _ => brushfire P c' ls ld (size m) (Z.to_nat (fst (size m) * snd (size m)))) st).
    { apply bind_same; [now apply alike_scan|intros _; now apply alike_brushfire]. }
    rewrite BB. destruct (bind _ _ _); reflexivity.
Qed.
Print Assumptions C87_stateless.

(** A computer that counts its calls and answers with their number, on the corridor of
    C42: 16 calls for a radius of 2 cells, none in the second round. *)
Definition counting (k : Z) (d : Q) : Z * option Z := (k + 1, Some (100 + k)).
Definition round1 := inflate_s (E := exact_wrap) float_env (list_queue true) (fun _ _ => 0) "a" "b" 2 counting (new_inflater _) corridor 0.
Definition round2 := match fst round1 with
  | Done o m => inflate_s (E := exact_wrap) float_env (list_queue true) (fun _ _ => 0) "a" "b" 2 counting o m 0
  | x => (x, -1) end.
Definition layer_of_seen (l : string) (x : out cmap bool) : res mat := match x with Ret true m => get m l | _ => Fault OutOfFuel end.
Example C87_case :
  used (E := exact_wrap) float_env (list_queue true) (new_inflater _) None /\ reg_ok' corridor /\ (forall c, value_at corridor "a" c lethal <-> c = (0, 0)) /\
  cell_radius (E := exact_wrap) 2 corridor = Ok 2 /\ dist_ok (hyp float_env) 2 /\
  snd round1 = 16 /\ layer_of_seen "b" (seen (fst round1)) = Ok (Mat 1 4 [254; 101; 102; 0]) /\
  snd round2 = 0 /\ layer_of_seen "b" (seen (fst round2)) = Ok (Mat 1 4 [254; 101; 102; 0]).
Proof.
  split; [constructor|]. split; [now apply reg_okb_ok|]. split.
  { intros s. split; [|intros ->; apply at_value; vm_compute; reflexivity]. intros V.
    pose proof (value_range _ _ _ _ (proj1 (reg_okb_ok corridor eq_refl)) V) as RG. apply at_value in V.
    destruct s as [i j]. destruct RG as [RI RJ]. change (fst (size corridor)) with 1 in RI. change (snd (size corridor)) with 4 in RJ. cbn [fst snd] in *.
    assert (i = 0) as -> by lia. assert (HJ : j = 0 \/ j = 1 \/ j = 2 \/ j = 3) by lia.
    revert V. destruct HJ as [-> |[-> |[-> | ->]]]; vm_compute; intros; congruence. }
  split; [vm_compute; reflexivity|]. split; [apply float_env_ok; lia|]. split; [vm_compute; reflexivity|]. split; [vm_compute; reflexivity|].
  split; vm_compute; reflexivity.
Qed.
