(** Instances of the arithmetic of ModelRound.v, for C100 and C101. *)
From Coq Require Import Lra.
From Verif Require Import Base ModelRun ModelReal ModelRound ProofBase SpecReal ProofReal.
Local Open Scope R_scope.

(** Exact arithmetic. *)
Definition exact : arith := mkArith (fun x => x) exp ln rsum.
Fixpoint chain (x : R) (l : list R) : tree := match l with [] => Leaf x | y :: t => Node (Leaf x) (chain y t) end.
Lemma chain_leaves : forall l x, leaves (chain x l) = x :: l.
Proof. induction l as [|y t IH]; intros x; auto. cbn. rewrite IH. auto. Qed.
Lemma exact_sound : sound exact.
Proof.
  constructor; cbn; auto.
  - intros x y [H| ->]; [left; apply exp_increasing; auto|lra].
  - apply exp_0.
  - intros x. left. apply exp_pos.
  - intros x y Hx [H| ->]; [left; apply ln_increasing; auto|lra].
  - apply ln_1.
  - intros [|x l] H; [congruence|]. exists (chain x l). split; [rewrite chain_leaves; auto|].
    clear H. revert x. induction l as [|y t IH]; intros x; cbn; [lra|]. rewrite <- IH. reflexivity.
Qed.

(** Numbers rounded down to a multiple of 1/q, added from the right. *)
Definition down (q : R) (x : R) : R := IZR (Int_part (x * q)) / q.
Fixpoint right_sum (f : R -> R) (l : list R) : R :=
  match l with [] => 0 | [x] => x | x :: t => f (x + right_sum f t) end.
Definition grid (q : R) : arith :=
  mkArith (down q) (fun x => down q (exp x)) (fun x => down q (ln x)) (right_sum (down q)).
Lemma Int_part_le : forall x z, (z <= Int_part x)%Z <-> IZR z <= x.
Proof.
  intros x z. destruct (base_Int_part x) as [H1 H2]. split; intros H.
  - apply IZR_le in H. lra.
  - apply Z.lt_succ_r. apply lt_IZR. unfold Z.succ. rewrite plus_IZR. lra.
Qed.
Lemma down_mono : forall q x y, 0 < q -> x <= y -> down q x <= down q y.
Proof.
  intros q x y Hq H. unfold down, Rdiv. apply Rmult_le_compat_r; [left; apply Rinv_0_lt_compat; auto|].
  apply IZR_le. apply Int_part_le. destruct (base_Int_part (x * q)) as [H1 _]. nra.
Qed.
Lemma down_exact : forall q x z, 0 < q -> x * q = IZR z -> down q x = x.
Proof.
  intros q x z Hq H. unfold down. rewrite H.
  assert (Int_part (IZR z) = z).
  { apply Z.le_antisymm; [|apply Int_part_le; lra]. destruct (base_Int_part (IZR z)) as [H1 _]. apply le_IZR. auto. }
  rewrite H0, <- H. field. lra.
Qed.
Lemma down_idem : forall q x, 0 < q -> down q (down q x) = down q x.
Proof. intros q x Hq. apply (down_exact q _ (Int_part (x * q))); auto. unfold down. field. lra. Qed.
Lemma grid_sound : forall q, (1 <= q)%Z -> sound (grid (IZR q)).
Proof.
  intros q Hq. assert (H0 : 1 <= IZR q) by (apply IZR_le in Hq; auto). assert (H : 0 < IZR q) by lra.
  constructor; cbn [grid rnd fexp flog fsum].
  - intros; apply down_mono; auto.
  - intros; apply down_idem; auto.
  - apply (down_exact _ _ 0); auto. lra.
  - apply (down_exact _ _ q); auto. lra.
  - apply (down_exact _ _ (2 * q)); auto. rewrite mult_IZR. lra.
  - intros x y [Hx| ->]; [|lra]. apply down_mono; auto. left. apply exp_increasing; auto.
  - rewrite exp_0. apply (down_exact _ _ q); auto. lra.
  - intros x. replace 0 with (down (IZR q) 0) by (apply (down_exact _ _ 0); auto; lra).
    apply down_mono; auto. left. apply exp_pos.
  - intros x y Hx [Hl| ->]; [|lra]. apply down_mono; auto. left. apply ln_increasing; auto.
  - rewrite ln_1. apply (down_exact _ _ 0); auto. lra.
  - apply down_idem. auto.
  - reflexivity.
  - intros [|x l] Hne; [congruence|]. exists (chain x l). split; [rewrite chain_leaves; auto|].
    clear Hne. revert x. induction l as [|y t IH]; intros x; cbn [right_sum chain add_up]; auto.
    change (match t with [] => y | _ :: _ => down (IZR q) (y + right_sum (down (IZR q)) t) end)
      with (right_sum (down (IZR q)) (y :: t)). rewrite IH. reflexivity.
Qed.

(** A run with three equal log-likelihoods. *)
Definition lost_run : run := mkRun [0; 0; 0]%Z [[1]; [2]; [3]]%Z [4; 4; 4]%Z None None None None.
Lemma lost_ok : exists lw, get_logw lost_run None = Ok lw.
Proof.
  unfold get_logw. cbn [nlive_array lost_run get_logx]. replace (0 <? min_list [4; 4; 4])%Z with true by reflexivity.
  cbn [assertb rbind map cumsum cumsum_from length Nat.eqb logl]. eexists. reflexivity.
Qed.
