(** Concrete environments, used only for examples and counterexamples: stable
    insertion argsort, and a random generator reading draws from a list. *)
From Verif Require Import Base ProofBase.

Fixpoint ins (l : list Z) (i : nat) (js : list nat) : list nat :=
  match js with
  | [] => [i]
  | j :: t => if nth i l 0 <=? nth j l 0 then i :: js else j :: ins l i t
  end.
Definition isort (l : list Z) : list nat := fold_right (ins l) [] (seq 0 (length l)).

Lemma ins_perm : forall l i js, Permutation (ins l i js) (i :: js).
Proof.
  induction js as [|j t IH]; simpl; auto.
  destruct (nth i l 0 <=? nth j l 0); auto.
  rewrite IH. apply perm_swap.
Qed.
Lemma ins_sorted : forall l i js,
    StronglySorted Z.le (map (fun k => nth k l 0) js) ->
    StronglySorted Z.le (map (fun k => nth k l 0) (ins l i js)).
Proof.
  induction js as [|j t IH]; simpl; intros H; [repeat constructor|].
  destruct (nth i l 0 <=? nth j l 0) eqn:He; simpl.
  - apply Z.leb_le in He. constructor; auto. inversion H; subst.
    constructor; auto. eapply Forall_impl; [|eauto]. simpl; intros; lia.
  - apply Z.leb_gt in He. inversion H; subst. constructor; auto.
    rewrite Forall_forall in *. intros x Hx. apply in_map_iff in Hx as [k [<- Hk]].
    apply (Permutation_in _ (ins_perm l i t)) in Hk as [<-|Hk]; [lia|].
    apply H3, in_map_iff. eauto.
Qed.
Lemma isort_perm : forall l, Permutation (isort l) (seq 0 (length l)).
Proof.
  intros. unfold isort. induction (seq 0 (length l)); simpl; auto.
  rewrite ins_perm. auto.
Qed.
Lemma isort_sorted : forall l, StronglySorted Z.le (map (fun i => nth i l 0) (isort l)).
Proof.
  intros. unfold isort. induction (seq 0 (length l)); simpl; [constructor|].
  apply ins_sorted; auto.
Qed.

(** Draws are read from a list (reduced to the range asked for), then zeros. *)
Definition script_below (n : nat) (s : list nat) : nat * list nat :=
  match s with [] => (0%nat, []) | k :: t => (Nat.modulo k n, t) end.
Lemma script_below_ok : forall n s, (0 < n)%nat -> (fst (script_below n s) < n)%nat.
Proof.
  intros. destruct s; simpl; auto. apply Nat.mod_upper_bound. lia.
Qed.
Definition script_env (script : list nat) : env :=
  mkEnv (list nat) (fun z => if z =? 0 then script else [Z.to_nat z]) script_below
        script_below_ok isort isort_perm isort_sorted.
