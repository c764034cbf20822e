(** Concrete maps used by the examples next to the theorems, and boolean
    checkers for the hypotheses of the theorems. *)
From Coq Require Import ZArith QArith Qround Qabs Qreduction String List Bool Lia.
From Verif Require Import Base Mat GridMapMath GridIter CostMap Spec BaseLemmas CoreProofs.
Import ListNotations.
Open Scope Z_scope.

Fixpoint nodupb (l : list string) : bool :=
  match l with [] => true | x :: t => negb (smem x t) && nodupb t end.

Lemma nodupb_ok l : nodupb l = true -> NoDup l.
Proof.
  induction l as [|x t IH]; simpl; intros H; [constructor|].
  apply andb_true_iff in H as [H1 H2]. constructor; auto.
  intros C. apply smem_In in C. rewrite C in H1. discriminate.
Qed.

Definition mat_okb (n : idx) (d : mat) : bool :=
  (mrows d =? fst n) && (mcols d =? snd n) && (0 <=? mrows d) && (0 <=? mcols d) &&
  (Z.of_nat (List.length (mcoef d)) =? mrows d * mcols d).

Definition reg_okb (m : cmap) : bool :=
  nodupb (layers m) && nodupb (akeys (data m)) &&
  forallb (fun l => smem l (akeys (data m))) (layers m) &&
  forallb (fun l => smem l (layers m)) (akeys (data m)) &&
  forallb (fun kv => mat_okb (size m) (snd kv)) (data m) &&
  (0 <=? fst (size m)) && (0 <=? snd (size m)).

Lemma aget_In {A} (d : list (string * A)) l x : aget d l = Some x -> In (l, x) d.
Proof.
  induction d as [|[k v] t IH]; simpl; [discriminate|].
  destruct (String.eqb_spec l k); intros H; [injection H as ->; subst; auto|auto].
Qed.

Lemma reg_okb_ok m : reg_okb m = true -> reg_ok' m.
Proof.
  unfold reg_okb. rewrite !andb_true_iff. intros ((((((H1 & H2) & H3) & H4) & H5) & H6) & H7).
  rewrite forallb_forall in H3, H4, H5. split; [|split; lia]. constructor.
  - now apply nodupb_ok.
  - now apply nodupb_ok.
  - intros l. split; intros K.
    + apply smem_In. now apply H3.
    + apply smem_In. now apply H4.
  - intros l d Hd. apply aget_In in Hd. specialize (H5 _ Hd). cbn [snd] in H5. unfold mat_okb in H5.
    rewrite !andb_true_iff in H5. destruct H5 as ((((A & B) & C) & D) & F).
    unfold wf_mat. repeat split; lia.
Qed.

Definition geo_okb (m : cmap) : bool :=
  Qlt_bool 0 (resn m) && (0 <? fst (size m)) && (0 <? snd (size m)) &&
  Qeq_bool (fst (len m)) (inject_Z (fst (size m)) * resn m) &&
  Qeq_bool (snd (len m)) (inject_Z (snd (size m)) * resn m) &&
  index_in_range (start m) (size m).

Lemma geo_okb_ok m : geo_okb m = true -> geo_ok m.
Proof.
  unfold geo_okb. rewrite !andb_true_iff. intros (((((H1 & H2) & H3) & H4) & H5) & H6).
  constructor.
  - now apply Qlt_bool_iff.
  - lia.
  - split; cbn [fst snd]; now apply Qeq_bool_iff.
  - unfold index_in_range in H6. unfold in_range. lia.
Qed.

(** Run a mutating call, keeping the state; a failure gives the empty map. *)
Definition after {A} (f : M cmap A) (m : cmap) : cmap :=
  match f m with Ret _ m' => m' | Exn _ m' => m' | Flt _ => new_map [] end.

Definition all_cells (n : idx) : list idx :=
  flat_map (fun i => map (fun j => (i, j)) (zseq (snd n))) (zseq (fst n)).

(** Fill layer [l] with distinct values base, base+1, ... in row-major order. *)
Definition number_cells (l : string) (base : Z) (m : cmap) : cmap :=
  after (mfor (all_cells (size m)) (fun i => at_set l i (base + fst i * snd (size m) + snd i))) m.

(** 5 x 4 cells of 1/2 m, centred at (1/2, -1), layers a, b, in exact arithmetic
    with wrapping bounds, then moved so that the start index is (3, 2). *)
Definition sample0 : cmap :=
  let m := after (setGeometry (E := exact_wrap) (5#2, 2#1)%Q (1#2) (1#2, -1#1)%Q) (new_map ["a"; "b"]%string) in
  number_cells "b" 100 (number_cells "a" 1 m).
Definition sample : cmap :=
  number_cells "b" 100 (number_cells "a" 1
    (after (move (E := exact_wrap) (-(1#1), -2#1)%Q) sample0)).

Lemma sample0_geo : geo_ok sample0. Proof. apply geo_okb_ok. vm_compute. reflexivity. Qed.
Lemma sample0_reg : reg_ok' sample0. Proof. apply reg_okb_ok. vm_compute. reflexivity. Qed.
Lemma sample_geo : geo_ok sample. Proof. apply geo_okb_ok. vm_compute. reflexivity. Qed.
Lemma sample_reg : reg_ok' sample. Proof. apply reg_okb_ok. vm_compute. reflexivity. Qed.
Lemma sample_start : start sample = (3, 2). Proof. vm_compute. reflexivity. Qed.

(** Split conjunctions (only) and compute every part. *)
Ltac conj_vm := repeat match goal with |- _ /\ _ => split end; vm_compute; first [reflexivity|intuition discriminate].

Lemma basics_existb_ok m : forallb (fun l => amem (data m) l) (basic m) = true -> basics_exist m.
Proof.
  rewrite forallb_forall. intros H l Hl. specialize (H l Hl). unfold amem in H. unfold has_layer.
  destruct (aget (data m) l); eauto. discriminate.
Qed.
Lemma sample_basics : basics_exist sample. Proof. apply basics_existb_ok. vm_compute. reflexivity. Qed.
