(** Property C75: copies of circle, ellipse and polygon iterators share their
    progress. *)
From Coq Require Import ZArith QArith String List Bool Lia.
From Verif Require Import Base Mat GridMapMath GridIter CostMap Iterators Handles BaseLemmas Spec FilterProofs PropWindow Samples.
Import ListNotations.
Open Scope Z_scope.

(** ** What a history of calls says about a variable; latest call first *)

(** The number of the call that made the iterator that [v] is a copy of. *)
Fixpoint origin (h : list call) (v : nat) : option nat :=
  match h with
  | [] => None
  | New u _ :: t => if Nat.eqb v u then Some (List.length t) else origin t v
  | Assign u w :: t => if Nat.eqb v u then origin t w else origin t v
  | Next _ :: t => origin t v
  end.

(** How often an iterator with origin [k] was incremented. *)
Fixpoint steps (h : list call) (k : nat) : nat :=
  match h with
  | [] => O
  | Next u :: t => (match origin t u with Some k' => if Nat.eqb k' k then 1 else 0 | None => 0 end + steps t k)%nat
  | _ :: t => steps t k
  end.

(** The call number [k] makes an iterator over [sh]. *)
Fixpoint made (h : list call) (k : nat) (sh : shape) : Prop :=
  match h with
  | [] => False
  | c :: t => (k = List.length t /\ exists v, c = New v sh) \/ made t k sh
  end.

(** No variable is used before it is set. *)
Fixpoint proper (h : list call) : Prop :=
  match h with
  | [] => True
  | New _ _ :: t => proper t
  | Assign _ w :: t => origin t w <> None /\ proper t
  | Next v :: t => origin t v <> None /\ proper t
  end.

Section Handles.
Context {E : Env} (sqr : Q -> Q).

Definition settled (it : sub_iter) : Prop := sb_past it = true -> sub_iter_next it = it.

Lemma next_settled it : settled (sub_iter_next it).
Proof.
  unfold settled, sub_iter_next, increment_submap.
  set (si' := if snd (sb_sindex it) + 1 <? snd (sb_ssize it) then _ else _).
  destruct (index_in_range si' (sb_ssize it)) eqn:R; cbn [negb sb_past]; [discriminate|].
  intros _. cbn [sb_sindex sb_ssize sb_index sb_size sb_start sb_sstart]. fold si'. rewrite R. reflexivity.
Qed.

Lemma seek_settled ins fuel : forall it it', settled it -> seek ins fuel it = Ok it' -> settled it'.
Proof.
  induction fuel as [|f IH]; intros it it' S H; [discriminate|]. cbn [seek] in H.
  destruct (sb_past it); [now injection H as <-|]. destruct (ins (sb_index it)) as [b| |]; cbn [rbind] in H; try discriminate.
  destruct b; [now injection H as <-|]. eapply IH; [|exact H]. apply next_settled.
Qed.

Lemma filt_settled ins it it' : filt_next ins it = Ok it' -> settled it'.
Proof.
  unfold filt_next. destruct (sb_past (sub_iter_next it)).
  - intros H. injection H as <-. apply next_settled.
  - intros H. eapply seek_settled; [apply next_settled|exact H].
Qed.

Lemma filt_past ins it : settled it -> sb_past it = true -> filt_next ins it = Ok it.
Proof. intros S P. unfold filt_next. rewrite (S P), P. reflexivity. Qed.

(** [it] still has [vs] to visit. *)
Definition ahead (sh : shape) (it : sub_iter) (vs : list idx) : Prop :=
  settled it /\ exists fuel, runM sb_past (fun it => Ok (sb_index it)) (filt_next (shape_inside sh)) fuel it = Ok vs.

Lemma ahead_now sh it vs : ahead sh it vs ->
  match vs with [] => sb_past it = true | i :: _ => sb_past it = false /\ sb_index it = i end.
Proof.
  intros [_ [fuel H]]. destruct fuel as [|f]; [discriminate|]. cbn [runM] in H. destruct (sb_past it).
  - injection H as <-. reflexivity.
  - cbn [rbind] in H. destruct (filt_next _ it) as [it'| |]; cbn [rbind] in H; try discriminate.
    destruct (runM _ _ _ f it') as [l| |]; cbn [rbind] in H; try discriminate. injection H as <-. auto.
Qed.

Lemma ahead_next sh it vs : ahead sh it vs -> exists it', filt_next (shape_inside sh) it = Ok it' /\ ahead sh it' (tl vs).
Proof.
  intros A. pose proof (ahead_now _ _ _ A) as NOW. destruct A as [S [fuel H]]. destruct vs as [|i vs].
  - exists it. split; [apply filt_past; auto|]. split; auto. exists fuel. exact H.
  - destruct NOW as [P _]. destruct fuel as [|f]; [discriminate|]. cbn [runM] in H. rewrite P in H. cbn [rbind] in H.
    destruct (filt_next _ it) as [it'| |] eqn:F; cbn [rbind] in H; try discriminate.
    destruct (runM _ _ _ f it') as [l| |] eqn:R; cbn [rbind] in H; try discriminate. injection H as _ <-.
    exists it'. split; auto. split; [now apply (filt_settled _ _ _ F)|]. exists f. exact R.
Qed.

Lemma filt_new_settled ins n s tl sn it : filt_new ins n s tl sn = Ok it -> settled it.
Proof.
  unfold filt_new. destruct (ins _) as [b| |]; cbn [rbind]; try discriminate. destruct b.
  - intros H. injection H as <-. intros P. discriminate P.
  - apply filt_settled.
Qed.

Lemma shape_start sh vs : shape_visits sqr sh = Ok vs -> exists it, shape_new sqr sh = Ok it /\ ahead sh it vs.
Proof.
  assert (K : forall m s n, filt_visits (shape_inside sh) (size m) (start m) s n = Ok vs ->
    exists it, filt_new (shape_inside sh) (size m) (start m) s n = Ok it /\ ahead sh it vs).
  { intros m s n H. unfold filt_visits in H. destruct (filt_new _ _ _ _ _) as [it| |] eqn:N; cbn [rbind] in H; try discriminate.
    exists it. split; auto. split; [exact (filt_new_settled _ _ _ _ _ _ N)|]. exists (grid_fuel n). exact H. }
  destruct sh as [m c R|m c L cs sn|m ps]; cbn [shape_visits shape_new].
  - unfold circle_visits. destruct (circle_window m c R) as [s n]. apply K.
  - unfold ellipse_visits. destruct (ellipse_window sqr m c L cs sn) as [s n]. apply K.
  - unfold polygon_visits. destruct (polygon_window m ps) as [[s n]| |]; cbn [rbind]; try discriminate. apply K.
Qed.

Lemma set_nth_length {A} n (x : A) l : List.length (set_nth n x l) = List.length l.
Proof. revert n. induction l as [|y t IH]; intros [|n]; cbn; auto. Qed.

Lemma set_nth_nth {A} n (x : A) l k : nth_error (set_nth n x l) k =
  if Nat.eqb k n then match nth_error l k with Some _ => Some x | None => None end else nth_error l k.
Proof.
  revert n k. induction l as [|y t IH]; intros n k; [destruct n; cbn; destruct k; destruct (Nat.eqb _ _); reflexivity|].
  destruct n, k; cbn; auto.
Qed.

(** The number of iterators made before call [k]. *)
Fixpoint news (h : list call) : nat :=
  match h with [] => O | New _ _ :: t => S (news t) | _ :: t => news t end.
Fixpoint address (h : list call) (k : nat) : nat :=
  match h with [] => O | _ :: t => if Nat.eqb k (List.length t) then news t else address t k end.

Lemma origin_lt h v k : origin h v = Some k -> (k < List.length h)%nat.
Proof.
  revert v. induction h as [|c t IH]; intros v H; [discriminate|]. cbn [origin List.length] in *. destruct c as [u sh|u w|u].
  - destruct (Nat.eqb v u); [injection H as <-; lia|]. specialize (IH _ H). lia.
  - destruct (Nat.eqb v u); specialize (IH _ H); lia.
  - specialize (IH _ H). lia.
Qed.

Lemma origin_made h v k : origin h v = Some k -> exists sh, made h k sh.
Proof.
  revert v. induction h as [|c t IH]; intros v H; [discriminate|]. cbn [origin] in H. destruct c as [u sh|u w|u]; cbn [made].
  - destruct (Nat.eqb v u); [injection H as <-; exists sh; eauto|]. destruct (IH _ H); eauto.
  - destruct (Nat.eqb v u); destruct (IH _ H); eauto.
  - destruct (IH _ H); eauto.
Qed.

Lemma made_lt h k sh : made h k sh -> (k < List.length h)%nat.
Proof. induction h as [|c t IH]; cbn [made List.length]; [tauto|]. intros [[-> _]|H]; [lia|]. specialize (IH H). lia. Qed.

Lemma address_lt h k sh : made h k sh -> (address h k < news h)%nat.
Proof.
  induction h as [|c t IH]; cbn [made]; [tauto|]. intros [[-> [v ->]]|H]; cbn [address news].
  - rewrite Nat.eqb_refl. lia.
  - pose proof (made_lt _ _ _ H). destruct (Nat.eqb_spec k (List.length t)); [lia|]. specialize (IH H). destruct c; lia.
Qed.

Lemma address_inj h k k' sh sh' : made h k sh -> made h k' sh' -> address h k = address h k' -> k = k'.
Proof.
  induction h as [|c t IH]; cbn [made]; [tauto|]. cbn [address].
  intros [[-> [v ->]]|H] [[-> [v' D]]|H'] A; auto.
  - rewrite Nat.eqb_refl in A. pose proof (made_lt _ _ _ H'). destruct (Nat.eqb_spec k' (List.length t)); auto. pose proof (address_lt _ _ _ H'). lia.
  - rewrite Nat.eqb_refl in A. pose proof (made_lt _ _ _ H). destruct (Nat.eqb_spec k (List.length t)); auto. pose proof (address_lt _ _ _ H). lia.
  - pose proof (made_lt _ _ _ H). pose proof (made_lt _ _ _ H').
    destruct (Nat.eqb_spec k (List.length t)); [lia|]. destruct (Nat.eqb_spec k' (List.length t)); [lia|]. auto.
Qed.

Lemma made_fun h k sh sh' : made h k sh -> made h k sh' -> sh = sh'.
Proof.
  induction h as [|c t IH]; cbn [made]; [tauto|]. intros [[-> [v ->]]|H] [[K [v' D]]|H']; try congruence; auto.
  - pose proof (made_lt _ _ _ H'). lia.
  - pose proof (made_lt _ _ _ H). lia.
Qed.

Lemma steps_unmade h k : (List.length h <= k)%nat -> steps h k = O.
Proof.
  induction h as [|c t IH]; cbn [steps List.length]; auto. intros H. destruct c as [u sh|u w|u]; try (apply IH; lia).
  rewrite IH by lia. destruct (origin t u) as [k'|] eqn:O; auto. pose proof (origin_lt _ _ _ O). destruct (Nat.eqb_spec k' k); lia.
Qed.

Record describes (h : list call) (s : memory) : Prop :=
  { ds_len : List.length (heap s) = news h;
    ds_vars : forall v, match origin h v with
                        | None => vars s v = None
                        | Some k => exists sh, made h k sh /\ vars s v = Some (sh, address h k)
                        end;
    ds_heap : forall k sh vs, made h k sh -> shape_visits sqr sh = Ok vs ->
                exists it, nth_error (heap s) (address h k) = Some it /\ ahead sh it (skipn (steps h k) vs) }.

Lemma skipn_tl {A} n (l : list A) : skipn (S n) l = tl (skipn n l).
Proof. revert l. induction n as [|n IH]; intros [|x l]; auto. change (skipn (S (S n)) (x :: l)) with (skipn (S n) l). rewrite IH. reflexivity. Qed.

Lemma calls_app ks ks' s : calls_run sqr (ks ++ ks') s = rbind (calls_run sqr ks s) (calls_run sqr ks').
Proof. revert s. induction ks as [|k t IH]; intros s; cbn [calls_run app]; auto. destruct (call_step sqr k s); cbn [rbind]; auto. Qed.

Lemma described h : proper h -> (forall k sh, made h k sh -> exists vs, shape_visits sqr sh = Ok vs) ->
  exists s, calls_run sqr (rev h) no_memory = Ok s /\ describes h s.
Proof.
  induction h as [|c t IH]; intros P V.
  - exists no_memory. split; auto. constructor; cbn; auto. tauto.
  - assert (Pt : proper t) by (destruct c; cbn in P; tauto).
    destruct IH as (s & RUN & D); auto. { intros k sh H. apply (V k sh). cbn. auto. }
    cbn [rev]. rewrite calls_app, RUN. cbn [rbind calls_run]. destruct c as [u sh|u w|u]; cbn [call_step].
    + destruct (V (List.length t) sh) as [vs HV]; [cbn; eauto|]. destruct (shape_start sh vs HV) as (it & NEW & A). rewrite NEW. cbn [rbind].
      eexists. split; [reflexivity|]. constructor; cbn [heap vars].
      * rewrite app_length, (ds_len _ _ D). cbn. lia.
      * intros v. cbn [origin]. unfold set_var. destruct (Nat.eqb_spec v u).
        -- exists sh. split; [cbn; eauto|]. cbn [address]. rewrite Nat.eqb_refl, (ds_len _ _ D). reflexivity.
        -- pose proof (ds_vars _ _ D v) as K. destruct (origin t v) as [k|] eqn:O; auto. destruct K as (sh' & M & K). exists sh'. split; [cbn; auto|].
           rewrite K. cbn [address]. pose proof (origin_lt _ _ _ O). destruct (Nat.eqb_spec k (List.length t)); [lia|reflexivity].
      * intros k sh' vs' [[-> [v' [= <- <-]]]|M] HV'; cbn [address steps].
        -- rewrite Nat.eqb_refl, <- (ds_len _ _ D), nth_error_app2, Nat.sub_diag by lia. exists it. split; [reflexivity|].
           rewrite steps_unmade by lia. cbn [skipn]. rewrite HV in HV'. injection HV' as <-. exact A.
        -- pose proof (made_lt _ _ _ M). destruct (Nat.eqb_spec k (List.length t)); [lia|].
           destruct (ds_heap _ _ D k sh' vs' M HV') as (it' & N & A'). exists it'. split; auto.
           rewrite nth_error_app1; auto. rewrite (ds_len _ _ D). apply (address_lt _ _ _ M).
    + cbn [proper] in P. destruct P as [P _]. pose proof (ds_vars _ _ D w) as K. destruct (origin t w) as [k|] eqn:O; [|congruence].
      destruct K as (sh & M & K). rewrite K. cbn [rbind]. eexists. split; [reflexivity|]. constructor; cbn [heap vars].
      * rewrite (ds_len _ _ D). reflexivity.
      * intros v. cbn [origin]. unfold set_var. cbn [address].
        assert (L : forall v' k', origin t v' = Some k' -> Nat.eqb k' (List.length t) = false).
        { intros v' k' O'. pose proof (origin_lt _ _ _ O'). apply Nat.eqb_neq. lia. }
        destruct (Nat.eqb_spec v u).
        -- rewrite O. exists sh. split; [cbn; auto|]. now rewrite (L _ _ O).
        -- pose proof (ds_vars _ _ D v) as K'. destruct (origin t v) as [k'|] eqn:O'; auto. destruct K' as (sh' & M' & K'). exists sh'. split; [cbn; auto|].
           rewrite K'. now rewrite (L _ _ O').
      * intros k' sh' vs' [[_ [v' C]]|M'] HV'; [discriminate C|]. cbn [address steps]. pose proof (made_lt _ _ _ M').
        destruct (Nat.eqb_spec k' (List.length t)); [lia|]. exact (ds_heap _ _ D k' sh' vs' M' HV').
    + cbn [proper] in P. destruct P as [P _]. pose proof (ds_vars _ _ D u) as K. destruct (origin t u) as [k|] eqn:O; [|congruence].
      destruct K as (sh & M & K). rewrite K. destruct (V k sh) as [vs HV]; [cbn; auto|].
      destruct (ds_heap _ _ D k sh vs M HV) as (it & N & A). rewrite N. destruct (ahead_next _ _ _ A) as (it' & NX & A'). rewrite NX. cbn [rbind].
      assert (L : forall v' k', origin t v' = Some k' -> Nat.eqb k' (List.length t) = false).
      { intros v' k' O'. pose proof (origin_lt _ _ _ O'). apply Nat.eqb_neq. lia. }
      eexists. split; [reflexivity|]. constructor; cbn [heap vars].
      * rewrite set_nth_length, (ds_len _ _ D). reflexivity.
      * intros v. cbn [origin address]. pose proof (ds_vars _ _ D v) as K'. destruct (origin t v) as [k'|] eqn:O'; auto.
        destruct K' as (sh' & M' & K'). exists sh'. split; [cbn; auto|]. now rewrite K', (L _ _ O').
      * intros k' sh' vs' [[_ [v' C]]|M'] HV'; [discriminate C|]. cbn [address steps]. pose proof (made_lt _ _ _ M') as LT.
        destruct (Nat.eqb_spec k' (List.length t)) as [->|_]; [lia|]. rewrite set_nth_nth. rewrite O.
        destruct (ds_heap _ _ D k' sh' vs' M' HV') as (it2 & N2 & A2). destruct (Nat.eqb_spec (address t k') (address t k)) as [Q|Q].
        -- assert (k' = k) as -> by (eapply address_inj; eauto). rewrite N2, Nat.eqb_refl. exists it'. split; auto.
           assert (sh' = sh) as -> by (eapply made_fun; eauto). rewrite HV in HV'. injection HV' as <-.
           change (1 + steps t k)%nat with (S (steps t k)). now rewrite skipn_tl.
        -- exists it2. split; auto. destruct (Nat.eqb_spec k k') as [->|]; [congruence|]. exact A2.
Qed.

End Handles.

(** After any sequence of constructions, copies and increments of iterators over
    shapes that can be iterated: a variable stands where all increments of the
    copies of the same iterator have brought it, and two variables differ unless
    they are copies of the same iterator, wherever they stand. *)
Theorem C75_shared : forall (E : Env) sqr h, proper h -> (forall k sh, made h k sh -> exists vs, shape_visits sqr sh = Ok vs) ->
  exists s, calls_run sqr (rev h) no_memory = Ok s /\
    (forall v k, origin h v = Some k -> exists sh vs, made h k sh /\ shape_visits sqr sh = Ok vs /\
       is_past s v = Ok (List.length vs <=? steps h k)%nat /\
       (forall i, nth_error vs (steps h k) = Some i -> deref s v = Ok i)) /\
    (forall v w k k', origin h v = Some k -> origin h w = Some k' -> differs s v w = Ok (negb (Nat.eqb k k'))).
Proof.
  intros E sqr h P V. destruct (described sqr h P V) as (s & RUN & D). exists s. split; auto. split.
  - intros v k O. pose proof (ds_vars _ _ _ D v) as K. rewrite O in K. destruct K as (sh & M & K).
    destruct (V k sh M) as [vs HV]. exists sh, vs. split; auto. split; auto.
    destruct (ds_heap _ _ _ D k sh vs M HV) as (it & N & A). apply ahead_now in A. unfold is_past, deref, pointee. rewrite K, N. cbn [rbind].
    destruct (Nat.leb_spec (List.length vs) (steps h k)) as [L|L].
    + rewrite skipn_all2 in A by auto. rewrite A. split; auto. intros i H. assert (nth_error vs (steps h k) <> None) by congruence. apply nth_error_Some in H0. lia.
    + destruct (nth_error vs (steps h k)) as [j|] eqn:NE; [|apply nth_error_None in NE; lia].
      apply nth_error_split in NE as (l1 & l2 & -> & LL). rewrite <- LL, skipn_app, skipn_all, Nat.sub_diag in A. cbn [skipn app] in A.
      destruct A as [-> ->]. split; auto. congruence.
  - intros v w k k' O O'. pose proof (ds_vars _ _ _ D v) as K. rewrite O in K. pose proof (ds_vars _ _ _ D w) as K'. rewrite O' in K'.
    destruct K as (sh & M & K). destruct K' as (sh' & M' & K'). unfold differs. rewrite K, K'. f_equal. f_equal.
    destruct (Nat.eqb_spec k k') as [->|NE]; [apply Nat.eqb_refl|]. apply Nat.eqb_neq. intros Q. apply NE. eapply address_inj; eauto.
Qed.
Print Assumptions C75_shared.

(** A circle on a map of 5 x 4 cells, and two ways of using copies that go wrong. *)
Definition disc : shape := Circle sample0 (1#2, -1#1)%Q (3#5).

Example C75_case : let h := [Next 1; Assign 2 0; Next 0; Assign 1 0; New 3 disc; New 0 disc]%nat in
  proper h /\ origin h 2 = Some 0%nat /\ steps h 0 = 2%nat /\ origin h 3 = Some 1%nat /\ steps h 1 = 0%nat /\
  shape_visits (E := exact_wrap) qsqrt disc = Ok [(1, 1); (1, 2); (2, 1); (2, 2); (3, 1); (3, 2)] /\
  match calls_run (E := exact_wrap) qsqrt (rev h) no_memory with
  | Ok s => deref s 0 = Ok (2, 1) /\ deref s 2 = Ok (2, 1) /\ deref s 3 = Ok (1, 1) /\
            differs s 0 2 = Ok false /\ differs s 0 3 = Ok true
  | _ => False
  end.
Proof. conj_vm. Qed.

(** A copy does not remember a place. *)
Theorem C75_copy_refuted : exists sh s s' i j,
  calls_run (E := exact_wrap) qsqrt [New 0 sh; Assign 1 0] no_memory = Ok s /\ deref s 1 = Ok i /\
  calls_run (E := exact_wrap) qsqrt [Next 0] s = Ok s' /\ deref s' 1 = Ok j /\ i <> j /\ differs s' 0 1 = Ok false.
Proof.
  exists disc. destruct (calls_run (E := exact_wrap) qsqrt [New 0 disc; Assign 1 0] no_memory) as [s| |] eqn:H; try (vm_compute in H; discriminate H).
  destruct (calls_run (E := exact_wrap) qsqrt [Next 0] s) as [s'| |] eqn:H'.
  2,3: vm_compute in H; injection H as <-; vm_compute in H'; discriminate H'.
  exists s, s', (1, 1), (1, 2). vm_compute in H. injection H as <-. vm_compute in H'. injection H' as <-.
  split; [reflexivity|]. split; [reflexivity|]. split; [reflexivity|]. split; [reflexivity|]. split; [congruence|reflexivity].
Qed.
Print Assumptions C75_copy_refuted.

(** Iterators over the same shape that stand at the same cell count as different. *)
Theorem C75_equal_refuted : exists sh s i,
  calls_run (E := exact_wrap) qsqrt [New 0 sh; New 1 sh] no_memory = Ok s /\ deref s 0 = Ok i /\ deref s 1 = Ok i /\ differs s 0 1 = Ok true.
Proof.
  exists disc. destruct (calls_run (E := exact_wrap) qsqrt [New 0 disc; New 1 disc] no_memory) as [s| |] eqn:H; try (vm_compute in H; discriminate H).
  exists s, (1, 1). vm_compute in H. injection H as <-. split; [reflexivity|]. split; [reflexivity|]. split; reflexivity.
Qed.
Print Assumptions C75_equal_refuted.

(** [for (a = ...; !a.isPastEnd(); ++a) for (b = a; !b.isPastEnd(); ++b) f( *a, *b);] *)
Fixpoint inner_pairs (sqr : Q -> Q) (fuel : nat) (s : memory) : res (list (idx * idx) * memory) :=
  match fuel with
  | O => Fault OutOfFuel
  | S f =>
      rbind (is_past s 1) (fun p => if p then Ok ([], s) else
      rbind (deref s 0) (fun i => rbind (deref s 1) (fun j =>
      rbind (call_step (E := exact_wrap) sqr (Next 1) s) (fun s' =>
      rbind (inner_pairs sqr f s') (fun '(l, s2) => Ok ((i, j) :: l, s2))))))
  end.
Fixpoint outer_pairs (sqr : Q -> Q) (fuel : nat) (s : memory) : res (list (idx * idx)) :=
  match fuel with
  | O => Fault OutOfFuel
  | S f =>
      rbind (is_past s 0) (fun p => if p then Ok [] else
      rbind (call_step (E := exact_wrap) sqr (Assign 1 0) s) (fun s0 =>
      rbind (inner_pairs sqr f s0) (fun '(l, s1) =>
      rbind (call_step (E := exact_wrap) sqr (Next 0) s1) (fun s2 =>
      rbind (outer_pairs sqr f s2) (fun l' => Ok (l ++ l'))))))
  end.

(** The loop over pairs of cells gives no pair of different cells. *)
Theorem C75_pairs_refuted : exists sh vs s ps, shape_visits (E := exact_wrap) qsqrt sh = Ok vs /\ (1 < List.length vs)%nat /\
  calls_run (E := exact_wrap) qsqrt [New 0 sh] no_memory = Ok s /\ outer_pairs qsqrt 20 s = Ok ps /\
  forall i j, In (i, j) ps -> i = j.
Proof.
  exists disc. destruct (calls_run (E := exact_wrap) qsqrt [New 0 disc] no_memory) as [s| |] eqn:H; try (vm_compute in H; discriminate H).
  exists [(1, 1); (1, 2); (2, 1); (2, 2); (3, 1); (3, 2)], s, (map (fun i => (i, i)) [(1, 1); (1, 2); (2, 1); (2, 2); (3, 1); (3, 2)]).
  vm_compute in H. injection H as <-. split; [vm_compute; reflexivity|]. split; [cbn; lia|]. split; [reflexivity|]. split; [vm_compute; reflexivity|].
  intros i j K. apply in_map_iff in K as (x & [= <- <-] & _). reflexivity.
Qed.
Print Assumptions C75_pairs_refuted.
