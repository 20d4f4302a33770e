(** C101: with rounded arithmetic the results tend to those of exact arithmetic
    as the rounding errors go to zero. *)
From Coq Require Import Lra.
From Verif Require Import Base ModelRun ModelReal ModelRound ProofBase SpecReal ProofReal Ariths ProofLimit.
Local Open Scope R_scope.

(** An array, or a number, computed with arithmetic [A] is as close as wanted to
    the exact one if [A] is accurate enough. *)
Definition array_near (f : arith -> res (list xval)) (vs : list R) : Prop :=
  forall eps, 0 < eps -> exists u, 0 < u /\ forall A, accurate u A ->
    exists ys, f A = Ok (map XNum ys) /\ length ys = length vs /\
      forall i, (i < length vs)%nat -> Rabs (nth i ys 0 - nth i vs 0) <= eps.
Definition number_near (f : arith -> res xval) (v : R) : Prop :=
  forall eps, 0 < eps -> exists u, 0 < u /\ forall A, accurate u A ->
    exists y, f A = Ok (XNum y) /\ Rabs (y - v) <= eps.

(** ** Proofs *)
Lemma near_of : forall F f vs, (forall A, f A = Ok (F A)) -> tendsl F vs -> array_near f vs.
Proof.
  intros F f vs E H eps He. destruct (tendsl_close F vs H eps He) as (u & Hu & HA). exists u. split; auto. intros A Ha.
  destruct (HA A Ha) as (ys & Ey & Hys). exists ys. rewrite E, Ey. split; auto. split; [apply Forall2_len in Hys; auto|].
  clear H HA Ey E. induction Hys as [|y v ys vs Hy Hys IH]; intros [|i] Hi; cbn [length nth] in *; auto; try lia.
  apply IH. lia.
Qed.
Lemma number_of : forall f g v, (forall A, g A = Ok (f A)) -> tends f v -> number_near g v.
Proof.
  intros f g v E H eps He. destruct (H eps He) as (u & Hu & HA). exists u. split; auto. intros A Ha.
  destruct (HA A Ha) as (y & Ey & Hy). exists y. rewrite E, Ey. auto.
Qed.

(** ** Theorems *)
Theorem C101_logx : forall nlive sim logx, draws_ok sim (length nlive) -> get_logx nlive sim = Ok logx ->
    array_near (fun A => x_logx A nlive sim) logx.
Proof. intros nlive sim logx Hd H. destruct (tends_logx _ _ _ H Hd) as (F & E & HF). apply (near_of F); auto. Qed.
Print Assumptions C101_logx.

Theorem C101_weights : forall r sim logw, draws_ok sim (length (nlive_array r)) -> get_logw r sim = Ok logw ->
    array_near (fun A => x_logw A r sim) logw /\
    forall w, get_w_rel r sim = Ok w -> array_near (fun A => x_w_rel A r sim) w.
Proof.
  intros r sim logw Hd H. destruct (tends_logw _ _ _ H Hd) as (F & E & HF & Hne). split; [apply (near_of F); auto|].
  intros w Hw. unfold get_w_rel in Hw. rewrite H in Hw. injection Hw as <-.
  apply (near_of (fun A => x_rel A (F A))); [|apply tends_rel; auto]. intros A. unfold x_w_rel. rewrite E. auto.
Qed.
Print Assumptions C101_weights.

(** Rounded weights may be 0 (C100_positive_refuted), but with enough precision
    they are positive. *)
Theorem C101_positive : forall r sim logw, draws_ok sim (length (nlive_array r)) -> get_logw r sim = Ok logw ->
    exists u, 0 < u /\ forall A, accurate u A -> exists ws, x_w_rel A r sim = Ok (map XNum ws) /\ forall w, In w ws -> 0 < w.
Proof.
  intros r sim logw Hd H. destruct (C101_weights r sim logw Hd H) as [_ Hw].
  assert (Ew : get_w_rel r sim = Ok (rel logw)) by (unfold get_w_rel; rewrite H; auto). specialize (Hw _ Ew).
  assert (Hpos : forall w, In w (rel logw) -> 0 < w). { intros w Hi. apply in_map_iff in Hi as (x & <- & _). apply exp_pos. }
  assert (Hm : exists m, 0 < m /\ forall w, In w (rel logw) -> m <= w).
  { clear Hw Ew. induction (rel logw) as [|a l IH].
    - exists 1. split; [lra|]. intros w [].
    - destruct IH as (m & Hm & Hl); [intros; apply Hpos; right; auto|]. exists (Rmin a m).
      split; [apply Rmin_case; auto; apply Hpos; left; auto|]. intros w [<-|Hi]; [apply Rmin_l|].
      eapply Rle_trans; [apply Rmin_r|auto]. }
  destruct Hm as (m & Hm & Hl). destruct (Hw (m / 2)) as (u & Hu & HA); [lra|]. exists u. split; auto. intros A Ha.
  destruct (HA A Ha) as (ws & E & Ln & Hc). exists ws. split; auto. intros w Hi.
  destruct (In_nth _ _ 0 Hi) as (i & Hil & <-). rewrite Ln in Hil. specialize (Hc i Hil).
  specialize (Hl (nth i (rel logw) 0) (nth_In _ _ Hil)).
  destruct (Rle_dec (nth i ws 0) 0) as [Hle|]; [|lra]. exfalso.
  rewrite Rabs_left in Hc by lra. lra.
Qed.
Print Assumptions C101_positive.

Theorem C101_estimates : forall r sim logw, draws_ok sim (length (nlive_array r)) -> get_logw r sim = Ok logw ->
    (forall v, logz r None sim = Ok (Some v) -> number_near (fun A => x_logz A r sim) v) /\
    (forall v, evidence r None sim = Ok (Some v) -> number_near (fun A => x_evidence A r sim) v) /\
    (forall k h v, param_mean k h r None sim = Ok (Some v) -> number_near (fun A => x_param_mean A k r sim) v) /\
    (forall k v, param_squared_mean k r None sim = Ok (Some v) -> number_near (fun A => x_param_squared_mean A k r sim) v) /\
    (forall v, r_mean r None sim = Ok (Some v) -> number_near (fun A => x_r_mean A r sim) v).
Proof.
  intros r sim logw Hd H. destruct (tends_logw _ _ _ H Hd) as (F & E & HF & Hne).
  pose proof (tends_rel F logw Hne HF) as Hrel. pose proof (rel_sum_pos logw Hne) as Hp.
  assert (Hp0 : rsum (rel logw) <> 0) by lra.
  repeat split.
  - intros v Hv. unfold logz, logw_of in Hv. rewrite H in Hv. injection Hv as <-.
    apply (number_of (fun A => xlse A (F A))); [intros A; unfold x_logz; rewrite E; auto|apply tends_lse; auto].
  - intros v Hv. unfold evidence, logw_of in Hv. rewrite H in Hv. injection Hv as <-.
    apply (number_of (fun A => xexp A (xlse A (F A)))); [intros A; unfold x_evidence, x_logz; rewrite E; auto|].
    apply (tends_exp (fun A => xlse A (F A))), tends_lse; auto.
  - intros k h v Hv. unfold param_mean, logw_of in Hv. rewrite H in Hv. cbn [rbind] in Hv.
    destruct (column (theta r) k) as [c|e] eqn:Ec; [|destruct e; try discriminate; destruct h; discriminate]. injection Hv as <-.
    apply (number_of (fun A => x_wmean A (x_rel A (F A)) (map XNum c))).
    + intros A. unfold x_param_mean, x_column. rewrite E, Ec. auto.
    + apply (tends_wmean (fun A => x_rel A (F A)) (fun _ => map XNum c)); auto. apply tends_numbers.
  - intros k v Hv. unfold param_squared_mean, logw_of in Hv. rewrite H in Hv. cbn [rbind] in Hv.
    destruct (column (theta r) k) as [c|e] eqn:Ec; [|discriminate]. injection Hv as <-.
    apply (number_of (fun A => xsum A (map2 (xmul A) (map (fun a => xdiv A a (xsum A (x_rel A (F A)))) (x_rel A (F A))) (map (fun a => xmul A a a) (map XNum c))))).
    + intros A. unfold x_param_squared_mean, x_column. rewrite E, Ec. auto.
    + apply tends_sum. apply (tendsl_map2 xmul Rmult).
      * intros f1 f2 p _ H1 H2. apply tends_mul; auto.
      * apply (tendsl_map (fun A a => xdiv A a (xsum A (x_rel A (F A)))) (fun x => x / rsum (rel logw))); auto.
        intros f v _ Hf. apply (tends_div f (fun A => xsum A (x_rel A (F A)))); auto. apply tends_sum. auto.
      * apply (tendsl_map (fun A a => xmul A a a) (fun v => v ^ 2)); [|apply tends_numbers].
        intros f v _ Hf. replace (v ^ 2) with (v * v) by (cbn [pow]; lra). apply (tends_mul f f); auto.
  - intros v Hv. unfold r_mean, logw_of in Hv. rewrite H in Hv. injection Hv as <-.
    apply (number_of (fun A => x_wmean A (x_rel A (F A)) (x_radii A (theta r)))).
    + intros A. unfold x_r_mean. rewrite E. auto.
    + apply (tends_wmean (fun A => x_rel A (F A)) (fun A => x_radii A (theta r))); auto. apply tends_radii.
Qed.
Print Assumptions C101_estimates.

(** ** Arithmetics *)
Lemma exact_accurate : forall u, 0 <= u -> accurate u exact.
Proof.
  assert (Z : forall u x y, 0 <= u -> 0 <= y -> Rabs (x - x) <= u * (y + 1)).
  { intros u x y Hu Hy. replace (x - x) with 0 by lra. rewrite Rabs_R0. apply Rmult_le_pos; lra. }
  intros u Hu. constructor; cbn [exact rnd fexp flog fsum]; auto.
  - intros x. apply Z; auto. apply Rabs_pos.
  - intros x. apply Z; auto. left. apply exp_pos.
  - intros x _. apply Z; auto. apply Rabs_pos.
  - apply (s_sum exact exact_sound).
Qed.
Lemma down_error : forall q x, 0 < q -> Rabs (down q x - x) <= / q.
Proof.
  intros q x Hq. unfold down. destruct (base_Int_part (x * q)) as [H1 H2].
  assert (E : IZR (Int_part (x * q)) / q - x = (IZR (Int_part (x * q)) - x * q) * / q) by (field; lra).
  rewrite E, Rabs_mult, (Rabs_pos_eq (/ q)) by (left; apply Rinv_0_lt_compat; auto).
  rewrite <- (Rmult_1_l (/ q)) at 2. apply Rmult_le_compat_r; [left; apply Rinv_0_lt_compat; auto|].
  apply Rabs_le. lra.
Qed.
Lemma grid_accurate : forall q, (1 <= q)%Z -> accurate (/ IZR q) (grid (IZR q)).
Proof.
  intros q Hq. assert (H : 0 < IZR q) by (apply IZR_le in Hq; lra). pose proof (Rinv_0_lt_compat _ H) as Hi.
  pose proof (grid_sound q Hq) as S.
  assert (B : forall x y, 0 <= y -> Rabs (down (IZR q) x - x) <= / IZR q * (y + 1)).
  { intros x y Hy. eapply Rle_trans; [apply down_error; auto|]. nra. }
  constructor.
  - intros x. apply B, Rabs_pos.
  - intros x Hx. rewrite <- (s_0 _ S). apply (s_mono _ S). auto.
  - intros x. apply B. left. apply exp_pos.
  - intros x _. apply B, Rabs_pos.
  - apply (s_sum_nil _ S).
  - apply (s_sum _ S).
Qed.

Lemma exact_number : forall f v, number_near f v -> f exact = Ok (XNum v).
Proof.
  intros f v H. destruct (H 1) as (u & Hu & HA); [lra|]. destruct (HA exact (exact_accurate u ltac:(lra))) as (y & Ey & _).
  rewrite Ey. do 2 f_equal. destruct (Req_dec y v) as [|Hn]; auto. exfalso.
  assert (P : 0 < Rabs (y - v)) by (apply Rabs_pos_lt; lra).
  destruct (H (Rabs (y - v) / 2)) as (u2 & Hu2 & HA2); [lra|].
  destruct (HA2 exact (exact_accurate u2 ltac:(lra))) as (z & Ez & C). rewrite Ey in Ez. injection Ez as <-. lra.
Qed.
Lemma exact_array : forall f vs, array_near f vs -> f exact = Ok (map XNum vs).
Proof.
  intros f vs H. destruct (H 1) as (u & Hu & HA); [lra|].
  destruct (HA exact (exact_accurate u ltac:(lra))) as (ys & E & L & _). rewrite E. do 2 f_equal.
  apply nth_ext with 0 0; auto. intros i Hi. rewrite L in Hi.
  destruct (Req_dec (nth i ys 0) (nth i vs 0)) as [|Hn]; auto. exfalso.
  assert (P : 0 < Rabs (nth i ys 0 - nth i vs 0)) by (apply Rabs_pos_lt; lra).
  destruct (H (Rabs (nth i ys 0 - nth i vs 0) / 2)) as (u2 & Hu2 & HA2); [lra|].
  destruct (HA2 exact (exact_accurate u2 ltac:(lra))) as (zs & E2 & L2 & C2). rewrite E in E2. injection E2 as E2.
  assert (Ez : zs = ys).
  { clear -E2. revert zs E2. induction ys as [|y ys IH]; intros [|z zs] E2; try discriminate; auto. injection E2 as -> E2. f_equal. auto. }
  subst zs. specialize (C2 i Hi). lra.
Qed.

(** Without rounding the computed values are the exact ones of ModelReal.v. *)
Theorem C101_exact : forall r sim logw, draws_ok sim (length (nlive_array r)) -> get_logw r sim = Ok logw ->
    x_logw exact r sim = Ok (map XNum logw) /\
    (forall w, get_w_rel r sim = Ok w -> x_w_rel exact r sim = Ok (map XNum w)) /\
    (forall v, logz r None sim = Ok (Some v) -> x_logz exact r sim = Ok (XNum v)) /\
    (forall v, evidence r None sim = Ok (Some v) -> x_evidence exact r sim = Ok (XNum v)) /\
    (forall k h v, param_mean k h r None sim = Ok (Some v) -> x_param_mean exact k r sim = Ok (XNum v)) /\
    (forall k v, param_squared_mean k r None sim = Ok (Some v) -> x_param_squared_mean exact k r sim = Ok (XNum v)) /\
    (forall v, r_mean r None sim = Ok (Some v) -> x_r_mean exact r sim = Ok (XNum v)).
Proof.
  intros r sim logw Hd H. destruct (C101_weights r sim logw Hd H) as [H1 H2].
  destruct (C101_estimates r sim logw Hd H) as (E1 & E2 & E3 & E4 & E5).
  split; [apply (exact_array _ _ H1)|]. split; [intros w Hw; apply (exact_array _ _ (H2 w Hw))|].
  split; [intros v Hv; apply (exact_number _ _ (E1 v Hv))|]. split; [intros v Hv; apply (exact_number _ _ (E2 v Hv))|].
  split; [intros k h v Hv; apply (exact_number _ _ (E3 k h v Hv))|].
  split; [intros k v Hv; apply (exact_number _ _ (E4 k v Hv))|intros v Hv; apply (exact_number _ _ (E5 v Hv))].
Qed.
Print Assumptions C101_exact.

(** For every accuracy there is an arithmetic which rounds and meets it, and the
    run of C100 has weights. *)
Example C101_hypotheses : (forall u, 0 < u -> exists q, (1 <= q)%Z /\ accurate u (grid (IZR q))) /\
    draws_ok None (length (nlive_array lost_run)) /\ exists logw, get_logw lost_run None = Ok logw.
Proof.
  split; [|split; [exact I|apply lost_ok]]. intros u Hu. exists (Z.max 1 (up (/ u))). split; [lia|].
  assert (Hq : (1 <= Z.max 1 (up (/ u)))%Z) by lia. eapply accurate_weaken; [|apply grid_accurate; auto].
  destruct (archimed (/ u)) as [Ha _]. pose proof (Rinv_0_lt_compat u Hu).
  assert (Hm : / u <= IZR (Z.max 1 (up (/ u)))). { apply Rle_trans with (IZR (up (/ u))); [lra|]. apply IZR_le. lia. }
  apply Rle_trans with (/ / u); [apply Rinv_le_contravar; auto|rewrite Rinv_inv; lra].
Qed.
