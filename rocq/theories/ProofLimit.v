(** Lemmas: the rounded computations tend to the exact ones. *)
From Coq Require Import Lra.
From Verif Require Import Base ModelRun ModelReal ModelRound ProofBase SpecReal ProofReal.
Local Open Scope R_scope.

(** With accurate enough arithmetic [f] gives a number close to [v]. *)
Definition tends (f : arith -> xval) (v : R) : Prop :=
  forall eps, 0 < eps -> exists u, 0 < u /\ forall A, accurate u A -> exists y, f A = XNum y /\ Rabs (y - v) <= eps.

Lemma accurate_weaken : forall u v A, u <= v -> accurate u A -> accurate v A.
Proof.
  intros u v A H [H1 H2 H3 H4 H5 H6]. constructor; auto; intros x.
  - eapply Rle_trans; [apply H1|]. apply Rmult_le_compat_r; auto. pose proof (Rabs_pos x). lra.
  - eapply Rle_trans; [apply H3|]. apply Rmult_le_compat_r; auto. pose proof (exp_pos x). lra.
  - intros Hx. eapply Rle_trans; [apply H4; auto|]. apply Rmult_le_compat_r; auto. pose proof (Rabs_pos (ln x)). lra.
Qed.
Lemma tends_ext : forall f g v, (forall A, f A = g A) -> tends f v -> tends g v.
Proof.
  intros f g v H Hf eps He. destruct (Hf eps He) as (u & Hu & HA). exists u. split; auto. intros A Ha. rewrite <- H. auto.
Qed.
Lemma tends_const : forall v, tends (fun _ => XNum v) v.
Proof.
  intros v eps He. exists 1. split; [lra|]. intros A _. exists v. split; auto. replace (v - v) with 0 by lra. rewrite Rabs_R0. lra.
Qed.

Definition cont1 (h : R -> R) (v : R) : Prop :=
  forall e, 0 < e -> exists d, 0 < d /\ forall x, Rabs (x - v) < d -> Rabs (h x - h v) < e.
Definition cont2 (h : R -> R -> R) (v w : R) : Prop :=
  forall e, 0 < e -> exists d, 0 < d /\ forall x y, Rabs (x - v) < d -> Rabs (y - w) < d -> Rabs (h x y - h v w) < e.
Lemma cont_of_pt : forall h v, continuity_pt h v -> cont1 h v.
Proof.
  intros h v H e He. destruct (H e He) as (d & Hd & Hx). exists d. split; auto. intros x Hxd.
  destruct (Req_dec x v) as [->|Hne]; [replace (h v - h v) with 0 by lra; rewrite Rabs_R0; auto|].
  apply (Hx x). split; [split; [exact I|auto]|auto].
Qed.
Lemma small_error : forall u e k y hy hv, 0 <= u -> 0 < e -> u * (Rabs hv + e + 1) <= e ->
    Rabs (y - hy) <= u * (Rabs hy + 1) * k -> 0 <= k <= 1 -> Rabs (hy - hv) < e -> Rabs (y - hv) <= 2 * e.
Proof.
  intros u e k y hy hv Hu He Hs H Hk Hc. replace (y - hv) with ((y - hy) + (hy - hv)) by lra.
  eapply Rle_trans; [apply Rabs_triang|].
  assert (Hh : Rabs hy <= Rabs hv + e).
  { replace hy with (hv + (hy - hv)) by lra. eapply Rle_trans; [apply Rabs_triang|]. lra. }
  assert (H1 : u * (Rabs hy + 1) * k <= u * (Rabs hv + e + 1)).
  { apply Rle_trans with (u * (Rabs hy + 1) * 1).
    - apply Rmult_le_compat_l; [|lra]. apply Rmult_le_pos; auto. pose proof (Rabs_pos hy). lra.
    - rewrite Rmult_1_r. apply Rmult_le_compat_l; auto. lra. }
  lra.
Qed.
Lemma tends_op1 : forall h op f v, cont1 h v ->
    (exists d, 0 < d /\ forall A u y, accurate u A -> 0 <= u -> Rabs (y - v) < d ->
       exists z, op A (XNum y) = XNum z /\ Rabs (z - h y) <= u * (Rabs (h y) + 1)) ->
    tends f v -> tends (fun A => op A (f A)) (h v).
Proof.
  intros h op f v Hc (d0 & Hd0 & Hop) Hf eps He.
  destruct (Hc (eps / 2)) as (d & Hd & Hx); [lra|].
  destruct (Hf (Rmin d d0 / 2)) as (u1 & Hu1 & HA); [apply Rmin_case; lra|].
  pose proof (Rabs_pos (h v)) as Hp.
  set (u2 := eps / 2 / (Rabs (h v) + eps / 2 + 1)).
  assert (Hu2 : 0 < u2) by (apply Rdiv_lt_0_compat; lra).
  exists (Rmin u1 u2). split; [apply Rmin_case; auto|]. intros A Ha.
  destruct (HA A) as (y & Ey & Hy). { eapply accurate_weaken; [|exact Ha]. apply Rmin_l. }
  assert (Hm : Rmin d d0 / 2 < d /\ Rmin d d0 / 2 < d0).
  { pose proof (Rmin_l d d0). pose proof (Rmin_r d d0). split; lra. }
  destruct (Hop A (Rmin u1 u2) y Ha) as (z & Ez & Hz). { apply Rmin_case; lra. } { lra. }
  exists z. rewrite Ey. split; auto. replace eps with (2 * (eps / 2)) by lra.
  apply (small_error (Rmin u1 u2) (eps / 2) 1 z (h y)); try lra.
  - apply Rmin_case; lra.
  - apply Rle_trans with (u2 * (Rabs (h v) + eps / 2 + 1)).
    + apply Rmult_le_compat_r; [lra|apply Rmin_r].
    + unfold u2. right. field. lra.
  - apply Hx. lra.
Qed.
Lemma tends_op2 : forall h op f g v w, cont2 h v w ->
    (exists d, 0 < d /\ forall A u x y, accurate u A -> 0 <= u -> Rabs (x - v) < d -> Rabs (y - w) < d ->
       exists z, op A (XNum x) (XNum y) = XNum z /\ Rabs (z - h x y) <= u * (Rabs (h x y) + 1)) ->
    tends f v -> tends g w -> tends (fun A => op A (f A) (g A)) (h v w).
Proof.
  intros h op f g v w Hc (d0 & Hd0 & Hop) Hf Hg eps He.
  destruct (Hc (eps / 2)) as (d & Hd & Hx); [lra|].
  destruct (Hf (Rmin d d0 / 2)) as (u1 & Hu1 & HA); [apply Rmin_case; lra|].
  destruct (Hg (Rmin d d0 / 2)) as (u3 & Hu3 & HB); [apply Rmin_case; lra|].
  pose proof (Rabs_pos (h v w)) as Hp.
  set (u2 := eps / 2 / (Rabs (h v w) + eps / 2 + 1)).
  assert (Hu2 : 0 < u2) by (apply Rdiv_lt_0_compat; lra).
  set (u := Rmin (Rmin u1 u3) u2). assert (Hu : 0 < u) by (repeat apply Rmin_case; auto).
  assert (L1 : u <= u1) by (eapply Rle_trans; [apply Rmin_l|apply Rmin_l]).
  assert (L3 : u <= u3) by (eapply Rle_trans; [apply Rmin_l|apply Rmin_r]).
  assert (L2 : u <= u2) by apply Rmin_r.
  exists u. split; auto. intros A Ha.
  destruct (HA A) as (x & Ex & Hx1). { eapply accurate_weaken; eauto. }
  destruct (HB A) as (y & Ey & Hy1). { eapply accurate_weaken; eauto. }
  assert (Hm : Rmin d d0 / 2 < d /\ Rmin d d0 / 2 < d0).
  { pose proof (Rmin_l d d0). pose proof (Rmin_r d d0). assert (0 < Rmin d d0) by (apply Rmin_case; auto). split; lra. }
  destruct (Hop A u x y Ha) as (z & Ez & Hz); try lra.
  exists z. rewrite Ex, Ey. split; auto. replace eps with (2 * (eps / 2)) by lra.
  apply (small_error u (eps / 2) 1 z (h x y)); try lra.
  - apply Rle_trans with (u2 * (Rabs (h v w) + eps / 2 + 1)).
    + apply Rmult_le_compat_r; lra.
    + unfold u2. right. field. lra.
  - apply Hx; lra.
Qed.

(** ** Continuous operations *)
Lemma cont_plus : forall v w, cont2 Rplus v w.
Proof.
  intros v w e He. exists (e / 2). split; [lra|]. intros x y Hx Hy. replace (x + y - (v + w)) with ((x - v) + (y - w)) by lra.
  eapply Rle_lt_trans; [apply Rabs_triang|lra].
Qed.
Lemma cont_minus : forall v w, cont2 (fun x y => x + - y) v w.
Proof.
  intros v w e He. exists (e / 2). split; [lra|]. intros x y Hx Hy. replace (x + - y - (v + - w)) with ((x - v) + - (y - w)) by lra.
  eapply Rle_lt_trans; [apply Rabs_triang|]. rewrite Rabs_Ropp. lra.
Qed.
Lemma cont_mult : forall v w, cont2 Rmult v w.
Proof.
  intros v w e He. pose proof (Rabs_pos v) as Hv. pose proof (Rabs_pos w) as Hw.
  set (d := Rmin 1 (e / (Rabs v + Rabs w + 2))).
  assert (Hq : 0 < e / (Rabs v + Rabs w + 2)) by (apply Rdiv_lt_0_compat; lra).
  assert (Hd : 0 < d) by (apply Rmin_case; lra).
  exists d. split; auto. intros x y Hx Hy. replace (x * y - v * w) with ((x - v) * y + v * (y - w)) by lra.
  eapply Rle_lt_trans; [apply Rabs_triang|]. rewrite !Rabs_mult.
  assert (Hy2 : Rabs y <= Rabs w + 1).
  { replace y with (w + (y - w)) by lra. eapply Rle_trans; [apply Rabs_triang|]. pose proof (Rmin_l 1 (e / (Rabs v + Rabs w + 2))). fold d in H. lra. }
  assert (Hd2 : d * (Rabs v + Rabs w + 2) <= e).
  { apply Rle_trans with (e / (Rabs v + Rabs w + 2) * (Rabs v + Rabs w + 2)); [apply Rmult_le_compat_r; [lra|apply Rmin_r]|].
    right. field. lra. }
  pose proof (Rabs_pos (x - v)). pose proof (Rabs_pos (y - w)). pose proof (Rabs_pos y).
  assert (Rabs (x - v) * Rabs y <= d * (Rabs w + 1)) by (apply Rmult_le_compat; lra).
  assert (Rabs v * Rabs (y - w) <= Rabs v * d) by (apply Rmult_le_compat_l; lra).
  nra.
Qed.
Lemma cont2_comp : forall h k v w, cont2 h v (k w) -> cont1 k w -> cont2 (fun x y => h x (k y)) v w.
Proof.
  intros h k v w Hh Hk e He. destruct (Hh e He) as (d & Hd & H). destruct (Hk d Hd) as (d2 & Hd2 & H2).
  exists (Rmin d d2). split; [apply Rmin_case; auto|]. intros x y Hx Hy. apply H.
  - eapply Rlt_le_trans; [exact Hx|apply Rmin_l].
  - apply H2. eapply Rlt_le_trans; [exact Hy|apply Rmin_r].
Qed.
Lemma cont_div : forall v w, w <> 0 -> cont2 Rdiv v w.
Proof.
  intros v w Hw. apply (cont2_comp Rmult Rinv); [apply cont_mult|]. apply cont_of_pt.
  apply (continuity_pt_inv id w); auto. apply derivable_continuous_pt, derivable_pt_id.
Qed.
Lemma cont_max : forall v w, cont2 Rmax v w.
Proof.
  intros v w e He. exists e. split; auto. intros x y Hx Hy.
  apply Rabs_def2 in Hx as [X1 X2]. apply Rabs_def2 in Hy as [Y1 Y2].
  apply Rabs_def1; unfold Rmax; destruct (Rle_dec x y), (Rle_dec v w); lra.
Qed.

(** ** The operations of the model *)
Lemma tends_add : forall f g v w, tends f v -> tends g w -> tends (fun A => xadd A (f A) (g A)) (v + w).
Proof.
  intros f g v w Hf Hg. apply (tends_op2 Rplus xadd); auto; [apply cont_plus|].
  exists 1. split; [lra|]. intros A u x y Ha Hu _ _. eexists. split; [reflexivity|]. apply (c_rnd u A Ha).
Qed.
Lemma tends_sub : forall f g v w, tends f v -> tends g w -> tends (fun A => xsub A (f A) (g A)) (v - w).
Proof.
  intros f g v w Hf Hg. apply (tends_op2 (fun x y => x + - y) xsub); auto; [apply cont_minus|].
  exists 1. split; [lra|]. intros A u x y Ha Hu _ _. eexists. split; [reflexivity|]. apply (c_rnd u A Ha).
Qed.
Lemma tends_mul : forall f g v w, tends f v -> tends g w -> tends (fun A => xmul A (f A) (g A)) (v * w).
Proof.
  intros f g v w Hf Hg. apply (tends_op2 Rmult xmul); auto; [apply cont_mult|].
  exists 1. split; [lra|]. intros A u x y Ha Hu _ _. eexists. split; [reflexivity|]. apply (c_rnd u A Ha).
Qed.
Lemma tends_div : forall f g v w, w <> 0 -> tends f v -> tends g w -> tends (fun A => xdiv A (f A) (g A)) (v / w).
Proof.
  intros f g v w Hw Hf Hg. apply (tends_op2 Rdiv xdiv); auto; [apply cont_div; auto|].
  exists (Rabs w). split; [apply Rabs_pos_lt; auto|]. intros A u x y Ha Hu _ Hy. cbn [xdiv].
  destruct (Req_EM_T y 0) as [->|Hy0].
  - exfalso. replace (0 - w) with (- w) in Hy by lra. rewrite Rabs_Ropp in Hy. lra.
  - eexists. split; [reflexivity|]. apply (c_rnd u A Ha).
Qed.
Lemma tends_max2 : forall f g v w, tends f v -> tends g w -> tends (fun A => xmax2 (f A) (g A)) (Rmax v w).
Proof.
  intros f g v w Hf Hg. apply (tends_op2 Rmax (fun _ => xmax2)); auto; [apply cont_max|].
  exists 1. split; [lra|]. intros A u x y Ha Hu _ _. eexists. split; [reflexivity|].
  replace (Rmax x y - Rmax x y) with 0 by lra. rewrite Rabs_R0. apply Rmult_le_pos; auto. pose proof (Rabs_pos (Rmax x y)). lra.
Qed.
Lemma tends_exp : forall f v, tends f v -> tends (fun A => xexp A (f A)) (exp v).
Proof.
  intros f v Hf. apply (tends_op1 exp xexp); auto.
  - apply cont_of_pt, derivable_continuous_pt, derivable_pt_exp.
  - exists 1. split; [lra|]. intros A u y Ha Hu _. eexists. split; [reflexivity|].
    rewrite (Rabs_pos_eq (exp y)) by (left; apply exp_pos). apply (c_exp u A Ha).
Qed.
Lemma tends_log : forall f v, 0 < v -> tends f v -> tends (fun A => xlog A (f A)) (ln v).
Proof.
  intros f v Hv Hf. apply (tends_op1 ln xlog); auto.
  - intros e He. destruct (ln_continue v Hv e He) as (d & Hd & H). exists (Rmin d v). split; [apply Rmin_case; auto|].
    intros x Hx. destruct (Req_dec x v) as [->|Hne]; [replace (ln v - ln v) with 0 by lra; rewrite Rabs_R0; auto|].
    apply (H x). split.
    + split; auto. assert (Rabs (x - v) < v) by (eapply Rlt_le_trans; [exact Hx|apply Rmin_r]). apply Rabs_def2 in H0. lra.
    + eapply Rlt_le_trans; [exact Hx|apply Rmin_l].
  - exists v. split; auto. intros A u y Ha Hu Hy. apply Rabs_def2 in Hy. cbn [xlog].
    destruct (Rlt_dec 0 y); [|lra]. eexists. split; [reflexivity|]. apply (c_log u A Ha). auto.
Qed.
Lemma tends_number : forall f v, tends f v -> tends (fun A => match f A with XNum x => XNum x | _ => XNum 0 end) v.
Proof.
  intros f v Hf eps He. destruct (Hf eps He) as (u & Hu & HA). exists u. split; auto. intros A Ha.
  destruct (HA A Ha) as (y & E & Hy). exists y. rewrite E. auto.
Qed.
Lemma tends_sqrt : forall f v, 0 <= v -> (forall u A y, accurate u A -> f A = XNum y -> 0 <= y) -> tends f v ->
    tends (fun A => xsqrt A (f A)) (sqrt v).
Proof.
  intros f v Hv Hpos Hf.
  assert (H : tends (fun A => (fun A x => match x with XNum y => XNum (rnd A (sqrt y)) | _ => XNan end) A (f A)) (sqrt v)).
  { apply (tends_op1 sqrt (fun A x => match x with XNum y => XNum (rnd A (sqrt y)) | _ => XNan end)); auto.
    - apply cont_of_pt, continuity_pt_sqrt. auto.
    - exists 1. split; [lra|]. intros A u y Ha Hu _. eexists. split; [reflexivity|]. apply (c_rnd u A Ha). }
  intros eps He. destruct (H eps He) as (u & Hu & HA). exists u. split; auto. intros A Ha.
  destruct (HA A Ha) as (z & Ez & Hz). exists z. split; auto.
  destruct (f A) as [| | |y] eqn:Ey; try discriminate Ez. cbn [xsqrt].
  destruct (Rle_dec 0 y) as [_|Hn]; auto. destruct Hn. eauto.
Qed.

(** ** Lists *)
Lemma Forall2_len : forall A B (P : A -> B -> Prop) a b, Forall2 P a b -> length a = length b.
Proof. intros A B P a b H. induction H; cbn [length]; auto. Qed.
Definition tendsl (F : arith -> list xval) (vs : list R) : Prop :=
  exists fs, (forall A, F A = map (fun f => f A) fs) /\ Forall2 tends fs vs.

Lemma tendsl_close : forall F vs, tendsl F vs -> forall eps, 0 < eps -> exists u, 0 < u /\
    forall A, accurate u A -> exists ys, F A = map XNum ys /\ Forall2 (fun y v => Rabs (y - v) <= eps) ys vs.
Proof.
  intros F vs (fs & EF & H) eps He.
  cut (exists u, 0 < u /\ forall A, accurate u A -> exists ys, map (fun f => f A) fs = map XNum ys /\ Forall2 (fun y v => Rabs (y - v) <= eps) ys vs).
  { intros (u & Hu & HA). exists u. split; auto. intros A Ha. rewrite EF. auto. }
  clear EF. induction H as [|f v fs vs Hf _ (u2 & Hu2 & IH)].
  - exists 1. split; [lra|]. intros A _. exists []. split; auto.
  - destruct (Hf eps He) as (u1 & Hu1 & HA). exists (Rmin u1 u2). split; [apply Rmin_case; auto|]. intros A Ha.
    destruct (HA A) as (y & Ey & Hy). { eapply accurate_weaken; [|exact Ha]. apply Rmin_l. }
    destruct (IH A) as (ys & Eys & Hys). { eapply accurate_weaken; [|exact Ha]. apply Rmin_r. }
    exists (y :: ys). cbn [map]. rewrite Ey, Eys. split; auto.
Qed.
Lemma tendsl_ext : forall F G vs, (forall A, F A = G A) -> tendsl F vs -> tendsl G vs.
Proof. intros F G vs H (fs & E & Hf). exists fs. split; auto. intros A. rewrite <- H. auto. Qed.
Lemma tendsl_nil : tendsl (fun _ => []) [].
Proof. exists []. split; auto. Qed.
Lemma tendsl_cons : forall f F v vs, tends f v -> tendsl F vs -> tendsl (fun A => f A :: F A) (v :: vs).
Proof. intros f F v vs Hf (fs & E & H). exists (f :: fs). split; auto. intros A. cbn [map]. rewrite E. auto. Qed.
Lemma tendsl_app : forall F G vs ws, tendsl F vs -> tendsl G ws -> tendsl (fun A => F A ++ G A) (vs ++ ws).
Proof.
  intros F G vs ws (fs & E & H) (gs & E2 & H2). exists (fs ++ gs). split.
  - intros A. rewrite map_app, E, E2. auto.
  - apply Forall2_app; auto.
Qed.
Lemma tendsl_of : forall B (g : arith -> B -> xval) (h : B -> R) l, (forall b, In b l -> tends (fun A => g A b) (h b)) ->
    tendsl (fun A => map (g A) l) (map h l).
Proof.
  intros B g h l H. exists (map (fun b A => g A b) l). split.
  - intros A. rewrite map_map. auto.
  - induction l as [|b l IH]; cbn [map]; constructor; auto with datatypes.
Qed.
Lemma tendsl_map : forall (g : arith -> xval -> xval) h F vs,
    (forall f v, In v vs -> tends f v -> tends (fun A => g A (f A)) (h v)) ->
    tendsl F vs -> tendsl (fun A => map (g A) (F A)) (map h vs).
Proof.
  intros g h F vs Hg (fs & E & H). exists (map (fun f A => g A (f A)) fs). split.
  - intros A. rewrite E, !map_map. auto.
  - clear E. induction H as [|f v fs vs Hf _ IH]; cbn [map]; constructor.
    + apply Hg; auto. left. auto.
    + apply IH. intros f' v' Hi. apply Hg. right. auto.
Qed.
Lemma tendsl_map2 : forall (g : arith -> xval -> xval -> xval) h F G vs ws,
    (forall f1 f2 p, In p (combine vs ws) -> tends f1 (fst p) -> tends f2 (snd p) -> tends (fun A => g A (f1 A) (f2 A)) (h (fst p) (snd p))) ->
    tendsl F vs -> tendsl G ws -> tendsl (fun A => map2 (g A) (F A) (G A)) (map2 h vs ws).
Proof.
  intros g h F G vs ws Hg (fs & E & H) (gs & E2 & H2).
  apply (tendsl_ext (fun A => map2 (g A) (map (fun f => f A) fs) (map (fun f => f A) gs))); [intros A; rewrite E, E2; auto|].
  clear E E2 F G. revert gs ws Hg H2. induction H as [|f v fs vs Hf _ IH]; intros gs ws Hg H2.
  - apply tendsl_nil.
  - destruct H2 as [|k w gs ws Hk H2]; [apply tendsl_nil|].
    change (map2 h (v :: vs) (w :: ws)) with (h v w :: map2 h vs ws).
    change (tendsl (fun A => g A (f A) (k A) :: map2 (g A) (map (fun f => f A) fs) (map (fun f => f A) gs)) (h v w :: map2 h vs ws)).
    apply (tendsl_cons (fun A => g A (f A) (k A))).
    + apply (Hg f k (v, w)); auto. left. auto.
    + apply IH; auto. intros f1 f2 p Hi. apply Hg. right. auto.
Qed.
Lemma tendsl_skipn : forall F vs k, tendsl F vs -> tendsl (fun A => skipn k (F A)) (skipn k vs).
Proof.
  intros F vs k (fs & E & H). exists (skipn k fs). split.
  - intros A. rewrite E, skipn_map. auto.
  - clear E. revert k. induction H as [|f v fs vs Hf H IH]; intros [|k]; cbn [skipn]; auto.
Qed.
Lemma tendsl_length : forall F vs A, tendsl F vs -> length (F A) = length vs.
Proof. intros F vs A (fs & E & H). rewrite E, map_length. apply Forall2_len in H. auto. Qed.
Lemma tendsl_nth : forall F vs i, (i < length vs)%nat -> tendsl F vs -> tends (fun A => nth i (F A) XNan) (nth i vs 0).
Proof.
  intros F vs i Hi (fs & E & H). apply (tends_ext (fun A => nth i (map (fun f => f A) fs) XNan)); [intros A; rewrite E; auto|].
  clear E. revert i Hi. induction H as [|f v fs vs Hf H IH]; intros [|i] Hi; cbn [length] in Hi; try lia; cbn [nth map].
  - eapply tends_ext; [|exact Hf]. auto.
  - apply IH. lia.
Qed.
Lemma tendsl_cumsum_from : forall fs vs f s, Forall2 tends fs vs -> tends f s ->
    tendsl (fun A => xcumsum_from A (f A) (map (fun f => f A) fs)) (cumsum_from s vs).
Proof.
  intros fs vs f s H. revert f s. induction H as [|g v fs vs Hg H IH]; intros f s Hf; cbn [map xcumsum_from cumsum_from].
  - apply tendsl_nil.
  - apply (tendsl_cons (fun A => xadd A (f A) (g A))).
    + apply tends_add; auto.
    + apply (IH (fun A => xadd A (f A) (g A))). apply tends_add; auto.
Qed.
Lemma tendsl_cumsum : forall F vs, tendsl F vs -> tendsl (fun A => xcumsum A (F A)) (cumsum vs).
Proof.
  intros F vs (fs & E & H). apply (tendsl_ext (fun A => xcumsum A (map (fun f => f A) fs))); [intros A; rewrite E; auto|].
  unfold cumsum. destruct H as [|f v fs vs Hf H]; cbn [map xcumsum cumsum_from]; [apply tendsl_nil|].
  replace (0 + v) with v by lra. apply tendsl_cons; auto. apply tendsl_cumsum_from; auto.
Qed.
Lemma tends_max : forall F vs, vs <> [] -> tendsl F vs -> tends (fun A => xmax (F A)) (rmax vs).
Proof.
  intros F vs Hne (fs & E & H). apply (tends_ext (fun A => xmax (map (fun f => f A) fs))); [intros A; rewrite E; auto|].
  destruct H as [|f v fs vs Hf H]; [congruence|]. clear E Hne. cbn [map xmax rmax].
  induction H as [|g w gs ws Hg H IH]; cbn [map fold_right].
  - apply (tends_ext f); auto.
  - apply (tends_max2 g (fun A => fold_right xmax2 (f A) (map (fun f => f A) gs))); auto.
Qed.

(** ** Sums in any order *)
Definition abs_sum (l : list R) : R := rsum (map Rabs l).
Lemma abs_sum_nonneg : forall l, 0 <= abs_sum l.
Proof. intros l. apply rsum_nonneg. intros x Hx. apply in_map_iff in Hx as (y & <- & _). apply Rabs_pos. Qed.
Lemma abs_rsum : forall l, Rabs (rsum l) <= abs_sum l.
Proof.
  induction l as [|x l IH]; [unfold abs_sum; cbn [map rsum fold_right]; rewrite Rabs_R0; apply Rle_refl|].
  unfold abs_sum. cbn [map]. rewrite !rsum_cons. eapply Rle_trans; [apply Rabs_triang|]. fold (abs_sum l). lra.
Qed.
Lemma leaves_length : forall t, (1 <= length (leaves t))%nat.
Proof. induction t; cbn [leaves]; rewrite ?app_length; cbn [length]; lia. Qed.
Lemma pow_grow : forall u n m, 0 <= u -> (n <= m)%nat -> (1 + u) ^ n - 1 <= (1 + u) ^ m - 1.
Proof. intros u n m Hu H. apply Rplus_le_compat_r. apply Rle_pow; auto. lra. Qed.
Lemma pow_ge1 : forall u n, 0 <= u -> 0 <= (1 + u) ^ n - 1.
Proof. intros u n Hu. pose proof (pow_R1_Rle (1 + u) n). lra. Qed.
Lemma add_up_error : forall u A t, accurate u A -> 0 <= u ->
    Rabs (add_up (rnd A) t - rsum (leaves t)) <=
    ((1 + u) ^ length (leaves t) - 1) * (abs_sum (leaves t) + INR (length (leaves t))).
Proof.
  intros u A t Ha Hu. induction t as [x|a IHa b IHb]; cbn [add_up leaves].
  - unfold abs_sum. cbn [map length]. rewrite !rsum_cons. cbn [rsum fold_right]. rewrite !Rplus_0_r.
    replace (x - x) with 0 by lra. rewrite Rabs_R0. pose proof (Rabs_pos x). cbn [INR].
    apply Rmult_le_pos; [|lra]. apply pow_ge1. auto.
  - pose proof (leaves_length a) as La. pose proof (leaves_length b) as Lb.
    unfold abs_sum in *. rewrite !map_app, !rsum_app, !app_length. fold (abs_sum (leaves a)) (abs_sum (leaves b)) in *.
    set (x := add_up (rnd A) a) in *. set (y := add_up (rnd A) b) in *.
    set (p := rsum (leaves a)) in *. set (q := rsum (leaves b)) in *.
    set (n := length (leaves a)) in *. set (m := length (leaves b)) in *.
    pose proof (abs_sum_nonneg (leaves a)) as Sa. pose proof (abs_sum_nonneg (leaves b)) as Sb.
    pose proof (abs_rsum (leaves a)) as Pa. pose proof (abs_rsum (leaves b)) as Pb. fold p in Pa. fold q in Pb.
    set (sa := abs_sum (leaves a)) in *. set (sb := abs_sum (leaves b)) in *.
    assert (Na : 1 <= INR n) by (change 1 with (INR 1); apply le_INR; auto).
    assert (Nb : 1 <= INR m) by (change 1 with (INR 1); apply le_INR; auto).
    assert (Hk : 0 <= (1 + u) ^ (n + m - 1) - 1) by (apply pow_ge1; auto).
    set (K := (1 + u) ^ (n + m - 1) - 1) in *.
    assert (Ea : Rabs (x - p) <= K * (sa + INR n)).
    { eapply Rle_trans; [exact IHa|]. apply Rmult_le_compat_r; [lra|]. apply pow_grow; auto. lia. }
    assert (Eb : Rabs (y - q) <= K * (sb + INR m)).
    { eapply Rle_trans; [exact IHb|]. apply Rmult_le_compat_r; [lra|]. apply pow_grow; auto. lia. }
    assert (EK : (1 + u) ^ (n + m) - 1 = (1 + u) * K + u).
    { unfold K. replace (n + m)%nat with (S (n + m - 1)) at 1 by lia. cbn [pow]. lra. }
    rewrite EK, plus_INR.
    replace (rnd A (x + y) - (p + q)) with ((rnd A (x + y) - (x + y)) + ((x - p) + (y - q))) by lra.
    eapply Rle_trans; [apply Rabs_triang|]. pose proof (c_rnd u A Ha (x + y)) as Hr.
    pose proof (Rabs_triang (x - p) (y - q)) as Ht.
    assert (Hz : Rabs (x + y) <= sa + sb + (Rabs (x - p) + Rabs (y - q))).
    { replace (x + y) with ((p + q) + ((x - p) + (y - q))) by lra. eapply Rle_trans; [apply Rabs_triang|].
      pose proof (Rabs_triang p q). lra. }
    assert (Hur : u * (Rabs (x + y) + 1) <= u * (sa + sb + (K * (sa + INR n) + K * (sb + INR m)) + 1)).
    { apply Rmult_le_compat_l; auto. lra. }
    assert (Hn : u * 1 <= u * (INR n + INR m)) by (apply Rmult_le_compat_l; lra).
    nra.
Qed.
Lemma pow_linear : forall u n, 0 <= u <= 1 -> (1 + u) ^ n - 1 <= u * 2 ^ n.
Proof.
  intros u n Hu. cut ((1 + u) ^ n - 1 <= u * (2 ^ n - 1)). { pose proof (pow_lt 2 n). nra. }
  induction n as [|n IH]; cbn [pow]; [lra|]. pose proof (pow_ge1 u n (proj1 Hu)).
  assert (u * ((1 + u) ^ n - 1) <= 1 * ((1 + u) ^ n - 1)) by (apply Rmult_le_compat_r; lra). lra.
Qed.
Lemma fsum_error : forall u A l, accurate u A -> 0 <= u <= 1 ->
    Rabs (fsum A l - rsum l) <= u * 2 ^ length l * (abs_sum l + INR (length l)).
Proof.
  intros u A l Ha Hu. destruct l as [|x l].
  - rewrite (c_sum_nil u A Ha). cbn [rsum fold_right]. replace (0 - 0) with 0 by lra. rewrite Rabs_R0. cbn [length INR abs_sum map].
    unfold abs_sum. cbn [map rsum fold_right]. lra.
  - destruct (c_sum u A Ha (x :: l)) as (t & Hp & E); [discriminate|]. rewrite E.
    rewrite <- (rsum_perm _ _ Hp), <- (Permutation_length Hp).
    unfold abs_sum. rewrite <- (rsum_perm _ _ (Permutation_map Rabs Hp)). fold (abs_sum (leaves t)).
    eapply Rle_trans; [apply (add_up_error u); auto; lra|]. apply Rmult_le_compat_r.
    + pose proof (abs_sum_nonneg (leaves t)). pose proof (pos_INR (length (leaves t))). lra.
    + apply pow_linear. auto.
Qed.
Lemma numbers_map : forall l, numbers (map XNum l) = Some l.
Proof. induction l as [|x l IH]; auto. cbn [map numbers]. rewrite IH. auto. Qed.
Lemma close_sums : forall e ys vs, 0 <= e -> Forall2 (fun y v => Rabs (y - v) <= e) ys vs ->
    Rabs (rsum ys - rsum vs) <= INR (length vs) * e /\ abs_sum ys <= abs_sum vs + INR (length vs) * e.
Proof.
  intros e ys vs He H. induction H as [|y v ys vs Hy H [IH1 IH2]].
  - cbn [length INR]. replace (rsum [] - rsum []) with 0 by (cbn [rsum fold_right]; lra). rewrite Rabs_R0. unfold abs_sum. cbn [map rsum fold_right]. lra.
  - cbn [length]. rewrite S_INR. unfold abs_sum. cbn [map]. rewrite !rsum_cons. fold (abs_sum ys) (abs_sum vs). split.
    + replace (y + rsum ys - (v + rsum vs)) with ((y - v) + (rsum ys - rsum vs)) by lra.
      eapply Rle_trans; [apply Rabs_triang|]. lra.
    + assert (Rabs y <= Rabs v + e). { replace y with (v + (y - v)) by lra. eapply Rle_trans; [apply Rabs_triang|]. lra. }
      lra.
Qed.
Lemma tends_sum : forall F vs, tendsl F vs -> tends (fun A => xsum A (F A)) (rsum vs).
Proof.
  intros F vs H eps He. pose proof (pos_INR (length vs)) as Hn. pose proof (abs_sum_nonneg vs) as Hs.
  set (n := INR (length vs)) in *. set (S := abs_sum vs) in *.
  set (e := Rmin 1 (eps / (2 * (n + 1)))).
  assert (He1 : 0 < e) by (apply Rmin_case; [lra|apply Rdiv_lt_0_compat; lra]).
  assert (He2 : n * e <= eps / 2).
  { apply Rle_trans with (n * (eps / (2 * (n + 1)))). { apply Rmult_le_compat_l; auto. apply Rmin_r. }
    replace (n * (eps / (2 * (n + 1)))) with (n / (n + 1) * (eps / 2)) by (field; lra).
    rewrite <- (Rmult_1_l (eps / 2)) at 2. apply Rmult_le_compat_r; [lra|]. apply Rmult_le_reg_r with (n + 1); [lra|].
    replace (n / (n + 1) * (n + 1)) with n by (field; lra). lra. }
  assert (He3 : n * e <= n). { rewrite <- (Rmult_1_r n) at 2. apply Rmult_le_compat_l; auto. apply Rmin_l. }
  destruct (tendsl_close F vs H e He1) as (u1 & Hu1 & HA).
  assert (Hp : 0 < 2 ^ length vs) by (apply pow_lt; lra).
  set (D := 2 ^ length vs * (S + 2 * n + 1)). assert (HD : 0 < D) by (apply Rmult_lt_0_compat; lra).
  set (u := Rmin (Rmin 1 u1) (eps / 2 / D)).
  assert (Hu : 0 < u) by (repeat apply Rmin_case; try lra; apply Rdiv_lt_0_compat; lra).
  assert (L1 : u <= 1) by (eapply Rle_trans; [apply Rmin_l|apply Rmin_l]).
  assert (L2 : u <= u1) by (eapply Rle_trans; [apply Rmin_l|apply Rmin_r]).
  assert (L3 : u * D <= eps / 2).
  { apply Rle_trans with (eps / 2 / D * D); [apply Rmult_le_compat_r; [lra|apply Rmin_r]|]. right. field. lra. }
  exists u. split; auto. intros A Ha. destruct (HA A) as (ys & E & Hc). { eapply accurate_weaken; eauto. }
  exists (fsum A ys). unfold xsum. rewrite E, numbers_map. split; auto.
  destruct (close_sums e ys vs) as [H1 H2]; auto; [lra|]. fold n S in H1, H2.
  pose proof (fsum_error u A ys Ha) as H3. rewrite (Forall2_len _ _ _ _ _ Hc) in H3. fold n in H3.
  replace (fsum A ys - rsum vs) with ((fsum A ys - rsum ys) + (rsum ys - rsum vs)) by lra.
  eapply Rle_trans; [apply Rabs_triang|].
  assert (Rabs (fsum A ys - rsum ys) <= u * D); [|lra].
  eapply Rle_trans; [apply H3; lra|]. unfold D. rewrite <- Rmult_assoc. apply Rmult_le_compat_l; [|lra].
  apply Rmult_le_pos; lra.
Qed.

(** ** The functions of the model *)
Lemma tends_lse : forall F vs, vs <> [] -> tendsl F vs -> tends (fun A => xlse A (F A)) (lse vs).
Proof.
  intros F vs Hne H.
  assert (E : lse vs = ln (rsum (map (fun x => exp (x - rmax vs)) vs)) + rmax vs).
  { assert (P : 0 < rsum (map (fun x => exp (x - rmax vs)) vs)).
    { apply rsum_pos; [destruct vs; [congruence|discriminate]|]. intros x Hx. apply in_map_iff in Hx as (y & <- & _). apply exp_pos. }
    apply exp_inv. rewrite exp_lse, exp_plus, exp_ln by auto. rewrite Rmult_comm, <- rsum_scale.
    apply rsum_ext_in. intros x _. rewrite <- exp_plus. f_equal. lra. }
  rewrite E. unfold xlse.
  apply (tends_add _ (fun A => match xmax (F A) with XNum x => XNum x | _ => XNum 0 end)).
  2: apply tends_number, tends_max; auto.
  apply (tends_log (fun A => xsum A (map (fun x => xexp A (xsub A x (match xmax (F A) with XNum x => XNum x | _ => XNum 0 end))) (F A)))).
  { apply rsum_pos; [destruct vs; [congruence|discriminate]|]. intros x Hx. apply in_map_iff in Hx as (y & <- & _). apply exp_pos. }
  apply tends_sum. apply (tendsl_map (fun A x => xexp A (xsub A x (match xmax (F A) with XNum x => XNum x | _ => XNum 0 end)))); auto.
  intros f v Hv Hf. apply (tends_exp (fun A => xsub A (f A) (match xmax (F A) with XNum x => XNum x | _ => XNum 0 end))).
  apply (tends_sub f (fun A => match xmax (F A) with XNum x => XNum x | _ => XNum 0 end)); auto. apply tends_number, tends_max; auto.
Qed.
Lemma tends_log_subtract : forall f g a b, b < a -> tends f a -> tends g b ->
    tends (fun A => x_log_subtract A (f A) (g A)) (log_subtract a b).
Proof.
  intros f g a b Hba Hf Hg. unfold x_log_subtract, log_subtract.
  apply (tends_add f (fun A => xlog A (xsub A (XNum 1) (xexp A (xsub A (g A) (f A)))))); auto.
  apply (tends_log (fun A => xsub A (XNum 1) (xexp A (xsub A (g A) (f A))))).
  - assert (exp (b - a) < exp 0) by (apply exp_increasing; lra). rewrite exp_0 in H. lra.
  - apply (tends_sub (fun _ => XNum 1) (fun A => xexp A (xsub A (g A) (f A)))); [apply tends_const|].
    apply (tends_exp (fun A => xsub A (g A) (f A))). apply tends_sub; auto.
Qed.
Lemma tends_round : forall v, tends (fun A => XNum (rnd A v)) v.
Proof.
  intros v. apply (tends_op1 (fun x => x) (fun A x => match x with XNum y => XNum (rnd A y) | _ => XNan end) (fun _ => XNum v)); [| |apply tends_const].
  - intros e He. exists e. split; auto.
  - exists 1. split; [lra|]. intros A u y Ha Hu _. eexists. split; [reflexivity|]. apply (c_rnd u A Ha).
Qed.
Lemma tends_logx : forall nlive sim logx, get_logx nlive sim = Ok logx -> draws_ok sim (length nlive) ->
    exists F, (forall A, x_logx A nlive sim = Ok (F A)) /\ tendsl F logx.
Proof.
  intros nlive sim logx H Hd. unfold get_logx in H. unfold x_logx. destruct nlive as [|n0 nl]; [discriminate|].
  set (nlive := n0 :: nl) in *. destruct (0 <? min_list nlive)%Z eqn:E; [|discriminate]. cbn [assertb rbind] in *.
  assert (Hpos : forall n, In n nlive -> (0 < n)%Z) by (apply min_list_pos; auto; discriminate).
  injection H as <-. eexists. split; [reflexivity|]. apply tendsl_cumsum. destruct sim as [us|].
  - destruct Hd as [Hl Hu]. unfold map2.
    apply (tendsl_of (R * Z) (fun A p => xdiv A (xlog A (XNum (fst p))) (XNum (rnd A (IZR (snd p))))) (fun p => ln (fst p) / IZR (snd p))).
    intros [a n] Hi. cbn [fst snd]. pose proof (in_combine_l _ _ _ _ Hi) as H1. pose proof (in_combine_r _ _ _ _ Hi) as H2.
    apply (tends_div (fun A => xlog A (XNum a)) (fun A => XNum (rnd A (IZR n)))).
    + apply not_0_IZR. specialize (Hpos n H2). lia.
    + apply (tends_log (fun _ => XNum a)); [apply Hu; auto|apply tends_const].
    + apply tends_round.
  - apply (tendsl_of Z (fun A n => xmul A (XNum (-1)) (xdiv A (XNum 1) (XNum (rnd A (IZR n))))) (fun n => -1 * / IZR n)).
    intros n Hi. apply (tends_mul (fun _ => XNum (-1)) (fun A => xdiv A (XNum 1) (XNum (rnd A (IZR n))))); [apply tends_const|].
    replace (/ IZR n) with (1 / IZR n) by (unfold Rdiv; lra).
    apply (tends_div (fun _ => XNum 1) (fun A => XNum (rnd A (IZR n)))); [|apply tends_const|apply tends_round].
    apply not_0_IZR. specialize (Hpos n Hi). lia.
Qed.
Lemma combine_order : forall logx rest p x0 x1, logx = x0 :: x1 :: rest ->
    (forall i j, (i < j < length logx)%nat -> nth j logx 0 < nth i logx 0) -> In p (combine logx rest) -> snd p < fst p.
Proof.
  intros logx rest p x0 x1 E Hd Hi. destruct (In_nth _ _ (0, 0) Hi) as (i & Hl & <-).
  rewrite combine_length in Hl. assert (Hlr : (i < length rest)%nat) by lia. rewrite E in Hl. cbn [length] in Hl.
  assert (Hn : nth i (combine logx rest) (0, 0) = (nth i logx 0, nth i rest 0)).
  { clear -Hlr E. assert (Hx : (i < length logx)%nat) by (rewrite E; cbn [length]; lia). clear E. revert i rest Hlr Hx.
    induction logx as [|a l IH]; intros i [|b r] H1 H2; cbn [length] in *; try lia.
    destruct i as [|i]; auto. cbn [combine nth]. apply IH; lia. }
  rewrite Hn. cbn [fst snd]. assert (Hr : nth i rest 0 = nth (S (S i)) logx 0) by (rewrite E; reflexivity).
  rewrite Hr. apply Hd. rewrite E. cbn [length]. lia.
Qed.
Lemma tends_trapezium : forall F logx, (forall x, In x logx -> x < 0) ->
    (forall i j, (i < j < length logx)%nat -> nth j logx 0 < nth i logx 0) ->
    tendsl F logx -> tendsl (fun A => x_trapezium A (F A)) (trapezium logx).
Proof.
  intros F logx Hneg Hdec HF. destruct logx as [|v0 [|v1 rest]].
  - apply (tendsl_ext (fun _ => [])); [|apply tendsl_nil]. intros A. pose proof (tendsl_length F _ A HF) as L. destruct (F A); auto. discriminate L.
  - apply (tendsl_ext (fun _ => [])); [|apply tendsl_nil]. intros A. pose proof (tendsl_length F _ A HF) as L. destruct (F A) as [|a [|b l]]; auto. discriminate L.
  - set (logx := v0 :: v1 :: rest) in *.
    assert (T2 : tends (fun A => xlog A (XNum 2)) (ln 2)) by (apply (tends_log (fun _ => XNum 2)); [lra|apply tends_const]).
    assert (L2 : forall f g a b, tends f a -> tends g b -> tends (fun A => xsub A (xlse A [f A; g A]) (xlog A (XNum 2))) (lse [a; b] - ln 2)).
    { intros f g a b Hf Hg. apply (tends_sub (fun A => xlse A [f A; g A])); auto. apply (tends_lse (fun A => [f A; g A])); [discriminate|].
      apply tendsl_cons; auto. apply tendsl_cons; auto. apply tendsl_nil. }
    assert (N : forall i, (i < length logx)%nat -> tends (fun A => nth i (F A) XNan) (nth i logx 0)) by (intros i Hi; apply tendsl_nth; auto).
    apply (tendsl_ext (fun A =>
      x_log_subtract A (XNum 0) (xsub A (xlse A [nth 0 (F A) XNan; nth 1 (F A) XNan]) (xlog A (XNum 2)))
      :: map (fun d => xsub A d (xlog A (XNum 2))) (map2 (x_log_subtract A) (F A) (skipn 2 (F A)))
      ++ [xsub A (xlse A [nth (length logx - 2) (F A) XNan; nth (length logx - 1) (F A) XNan]) (xlog A (XNum 2))])).
    { intros A. pose proof (tendsl_length F _ A HF) as L. unfold x_trapezium. rewrite <- L.
      destruct (F A) as [|a [|b l]]; try discriminate L. reflexivity. }
    change (trapezium logx) with (log_subtract 0 (lse [v0; v1] - ln 2)
      :: map (fun d => d - ln 2) (map2 log_subtract logx (skipn 2 logx))
      ++ [lse [nth (length logx - 2) logx 0; nth (length logx - 1) logx 0] - ln 2]).
    apply (tendsl_cons (fun A => x_log_subtract A (XNum 0) (xsub A (xlse A [nth 0 (F A) XNan; nth 1 (F A) XNan]) (xlog A (XNum 2))))).
    + apply (tends_log_subtract (fun _ => XNum 0)).
      * apply exp_lt_inv. rewrite exp_lse2, exp_0.
        assert (exp v0 < exp 0) by (apply exp_increasing, Hneg; left; auto).
        assert (exp v1 < exp 0) by (apply exp_increasing, Hneg; right; left; auto). rewrite exp_0 in *. lra.
      * apply tends_const.
      * apply (L2 (fun A => nth 0 (F A) XNan) (fun A => nth 1 (F A) XNan)).
        -- apply (N 0%nat). cbn. lia.
        -- apply (N 1%nat). cbn. lia.
    + apply (tendsl_app (fun A => map (fun d => xsub A d (xlog A (XNum 2))) (map2 (x_log_subtract A) (F A) (skipn 2 (F A))))).
      * apply (tendsl_map (fun A d => xsub A d (xlog A (XNum 2))) (fun d => d - ln 2)).
        -- intros f v _ Hf. apply (tends_sub f); auto.
        -- apply (tendsl_map2 x_log_subtract log_subtract); auto; [|apply tendsl_skipn; auto].
           intros f1 f2 p Hp H1 H2. apply tends_log_subtract; auto. apply (combine_order logx rest p v0 v1); auto.
      * apply (tendsl_cons (fun A => xsub A (xlse A [nth (length logx - 2) (F A) XNan; nth (length logx - 1) (F A) XNan]) (xlog A (XNum 2)))); [|apply tendsl_nil].
        apply (L2 (fun A => nth (length logx - 2) (F A) XNan) (fun A => nth (length logx - 1) (F A) XNan)).
        -- apply N. cbn. lia.
        -- apply N. cbn. lia.
Qed.

Lemma tends_logw : forall r sim logw, get_logw r sim = Ok logw -> draws_ok sim (length (nlive_array r)) ->
    exists F, (forall A, x_logw A r sim = Ok (F A)) /\ tendsl F logw /\ logw <> [].
Proof.
  intros r sim logw H Hd. unfold get_logw in H. unfold x_logw.
  destruct (get_logx (nlive_array r) sim) as [logx|] eqn:Ex; [|discriminate]. cbn [rbind] in H.
  destruct (tends_logx _ _ _ Ex Hd) as (F & EF & HF). destruct (logx_facts _ _ _ Ex Hd) as (L & Hneg & Hdec).
  assert (Hne : nlive_array r <> []) by (intros E; rewrite E in Ex; discriminate Ex).
  rewrite map_length in H. destruct (length logx =? length (logl r))%nat eqn:E1; [|discriminate].
  apply Nat.eqb_eq in E1.
  assert (Hlen : forall A, length (F A) = length (logl r)) by (intros A; rewrite (tendsl_length F logx A); auto).
  assert (T : tendsl (fun _ : arith => map (fun z => XNum (fval z)) (logl r)) (map fval (logl r))).
  { apply (tendsl_of Z (fun _ z => XNum (fval z)) fval). intros z _. apply tends_const. }
  destruct (length (logl r) =? 1)%nat eqn:E2; injection H as <-.
  - exists (fun _ => map (fun z => XNum (fval z)) (logl r)). split; [|split; auto].
    + intros A. rewrite EF. cbn [rbind]. rewrite map_length, Hlen, Nat.eqb_refl, E2. auto.
    + intros E. apply map_eq_nil in E. rewrite E in E2. discriminate.
  - exists (fun A => map2 (xadd A) (x_trapezium A (F A)) (map (fun z => XNum (fval z)) (logl r))). split; [|split].
    + intros A. rewrite EF. cbn [rbind]. rewrite map_length, Hlen, Nat.eqb_refl, E2. auto.
    + apply (tendsl_map2 xadd Rplus); auto.
      * intros f1 f2 p _ H1 H2. apply tends_add; auto.
      * apply tends_trapezium; auto. rewrite L. auto.
    + apply Nat.eqb_neq in E2. intros E. assert (Hl : length (map2 Rplus (trapezium logx) (map fval (logl r))) = 0%nat) by (rewrite E; auto).
      rewrite map2_length, map_length in Hl.
      destruct logx as [|x0 [|x1 rest]].
      * cbn [length] in L. destruct (nlive_array r); [congruence|discriminate].
      * cbn [length] in E1. lia.
      * cbn [trapezium length] in Hl. cbn [length] in E1. destruct (logl r); cbn [length] in *; lia.
Qed.
Lemma tends_rel : forall F logw, logw <> [] -> tendsl F logw -> tendsl (fun A => x_rel A (F A)) (rel logw).
Proof.
  intros F logw Hne H. unfold x_rel, rel.
  apply (tendsl_map (fun A x => xexp A (xsub A x (xmax (F A)))) (fun x => exp (x - rmax logw))); auto.
  intros f v _ Hf. apply (tends_exp (fun A => xsub A (f A) (xmax (F A)))). apply (tends_sub f (fun A => xmax (F A))); auto.
  apply tends_max; auto.
Qed.
Lemma rel_sum_pos : forall logw, logw <> [] -> 0 < rsum (rel logw).
Proof.
  intros logw Hne. apply rsum_pos.
  - unfold rel. destruct logw; [congruence|discriminate].
  - intros x Hx. apply in_map_iff in Hx as (y & <- & _). apply exp_pos.
Qed.
Lemma tends_wmean : forall F G w x, rsum w <> 0 -> tendsl F w -> tendsl G x ->
    tends (fun A => x_wmean A (F A) (G A)) (wmean w x).
Proof.
  intros F G w x Hw HF HG. unfold x_wmean, wmean.
  apply (tends_div (fun A => xsum A (map2 (xmul A) (F A) (G A))) (fun A => xsum A (F A))); auto.
  - apply tends_sum. apply (tendsl_map2 xmul Rmult); auto. intros f1 f2 p _ H1 H2. apply tends_mul; auto.
  - apply tends_sum. auto.
Qed.
Lemma tends_numbers : forall l, tendsl (fun _ => map XNum l) l.
Proof.
  intros l. pose proof (tendsl_of R (fun _ x => XNum x) (fun x => x) l (fun x _ => tends_const x)) as H. rewrite map_id in H. exact H.
Qed.
Lemma fsum_sign : forall u A l, accurate u A -> (forall x, In x l -> 0 <= x) -> 0 <= fsum A l.
Proof.
  intros u A l Ha H. destruct l as [|x l]; [rewrite (c_sum_nil u A Ha); lra|].
  destruct (c_sum u A Ha (x :: l)) as (t & Hp & ->); [discriminate|].
  assert (Ht : forall y, In y (leaves t) -> 0 <= y) by (intros y Hy; apply H; eapply Permutation_in; eauto).
  clear Hp. induction t as [y|a IHa b IHb]; cbn [add_up leaves] in *.
  - apply Ht. left. auto.
  - apply (c_sign u A Ha).
    assert (0 <= add_up (rnd A) a) by (apply IHa; intros y Hy; apply Ht, in_or_app; auto).
    assert (0 <= add_up (rnd A) b) by (apply IHb; intros y Hy; apply Ht, in_or_app; auto). lra.
Qed.
Lemma tends_radii : forall th, tendsl (fun A => x_radii A th) (radii th).
Proof.
  intros th. unfold x_radii, radii.
  apply (tendsl_of _ (fun A row => xsqrt A (xsum A (map (fun z => xmul A (XNum (fval z)) (XNum (fval z))) row)))
                   (fun row => sqrt (rsum (map (fun z => fval z ^ 2) row)))).
  intros row _. apply (tends_sqrt (fun A => xsum A (map (fun z => xmul A (XNum (fval z)) (XNum (fval z))) row))).
  - apply rsum_nonneg. intros x Hx. apply in_map_iff in Hx as (z & <- & _). nra.
  - intros u A y Ha E. unfold xsum in E.
    assert (En : map (fun z => xmul A (XNum (fval z)) (XNum (fval z))) row = map XNum (map (fun z => rnd A (fval z * fval z)) row)) by (rewrite map_map; auto).
    rewrite En, numbers_map in E. injection E as <-. apply (fsum_sign u); auto.
    intros x Hx. apply in_map_iff in Hx as (z & <- & _). apply (c_sign u A Ha). nra.
  - apply tends_sum. apply (tendsl_of Z (fun A z => xmul A (XNum (fval z)) (XNum (fval z))) (fun z => fval z ^ 2)).
    intros z _. replace (fval z ^ 2) with (fval z * fval z) by (cbn [pow]; lra).
    apply (tends_mul (fun _ => XNum (fval z)) (fun _ => XNum (fval z))); apply tends_const.
Qed.
