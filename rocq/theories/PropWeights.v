(** C29 - C33: prior volumes, weights, evidence. *)
From Coq Require Import Lra.
From Verif Require Import Base ModelRun ModelReal ProofBase SpecReal ProofReal.
Local Open Scope R_scope.

(** ** C29 *)

Theorem C29_get_logx : forall nlive sim, draws_ok sim (length nlive) ->
    match get_logx nlive sim with
    | Ok logx =>
        (forall n, In n nlive -> (0 < n)%Z) /\ length logx = length nlive /\
        (forall i, (i < length nlive)%nat -> nth i logx 0 < 0) /\
        (forall i j, (i < j < length nlive)%nat -> nth j logx 0 < nth i logx 0) /\
        (forall i, (i < length nlive)%nat ->
           nth i logx 0 =
           sumR (map (fun j => match sim with
                               | None => - (1 / IZR (nth j nlive 1%Z))
                               | Some us => ln (nth j us 1) / IZR (nth j nlive 1%Z)
                               end) (seq 0 (S i))))
    | Raise e => (nlive = [] /\ e = ValueError) \/
                 ((exists n, In n nlive /\ (n <= 0)%Z) /\ e = AssertionError)
    end.
Proof.
  intros nlive sim Hd. destruct (get_logx nlive sim) as [logx|e] eqn:H.
  - destruct (logx_facts _ _ _ H Hd) as (L1 & L2 & L3). apply get_logx_ok in H as (K1 & K2 & K3).
    split; auto. split; auto. split; [intros i Hi; apply L2, nth_In; lia|]. split; auto.
    intros i Hi. subst logx. assert (Hl : length (logx_steps nlive sim) = length nlive) by (apply logx_steps_length; auto).
    rewrite nth_cumsum by lia. rewrite rsum_sumR. f_equal.
    apply nth_ext with 0 0; rewrite firstn_length; [rewrite map_length, seq_length; lia|].
    intros j Hj. rewrite nth_map_seq by lia.
    assert (Hf : nth j (firstn (S i) (logx_steps nlive sim)) 0 = nth j (logx_steps nlive sim) 0).
    { rewrite <- (firstn_skipn (S i) (logx_steps nlive sim)) at 2. rewrite app_nth1; auto.
      rewrite firstn_length. lia. }
    rewrite Hf. destruct sim as [us|]; cbn [logx_steps].
    + destruct Hd as [Hd _]. rewrite (nth_map2 _ _ _ _ _ _ _ 1 1%Z) by lia. auto.
    + rewrite (map_nth_in _ _ _ _ 1%Z) by lia. unfold Rdiv. lra.
  - unfold get_logx in H. destruct nlive as [|n0 t]; [left; injection H as <-; auto|].
    right. destruct (0 <? min_list (n0 :: t))%Z eqn:Hm; [discriminate|]. cbn in H.
    injection H as <-. split; auto. exists (min_list (n0 :: t)). split.
    + apply min_list_spec. discriminate.
    + apply Z.ltb_ge in Hm. auto.
Qed.
Print Assumptions C29_get_logx.
Example C29_example : get_logx [2; 2; 1]%Z None = Ok [0 + -1 * / 2; 0 + -1 * / 2 + -1 * / 2; 0 + -1 * / 2 + -1 * / 2 + -1 * / 1] /\
    draws_ok (Some [/ 2; / 3; / 4]) 3 /\ get_logx [2; 0]%Z None = Raise AssertionError.
Proof.
  split; [reflexivity|]. split; [|reflexivity]. split; auto. intros u [<-|[<-|[<-|[]]]]; lra.
Qed.

(** ** C31 *)

(** Runs with at least two samples: the weight of sample i is L_i times
    (X_{i-1} - X_{i+1})/2, the first sample also getting the volume from 1 to
    its own X, and the last that from its own X to 0. *)
Theorem C31_trapezium_rule : forall r sim logx logw,
    draws_ok sim (length (nlive_array r)) ->
    get_logx (nlive_array r) sim = Ok logx -> get_logw r sim = Ok logw ->
    let n := length (logl r) in
    let X := fun i => exp (nth i logx 0) in
    let L := fun i => exp (fval (nth i (logl r) 0%Z)) in
    length logw = n /\
    (n = 1%nat -> exp (nth 0 logw 0) = L 0%nat) /\
    ((2 <= n)%nat ->
     exp (nth 0 logw 0) = L 0%nat * (1 - (X 0%nat + X 1%nat) / 2) /\
     exp (nth (n - 1) logw 0) = L (n - 1)%nat * ((X (n - 2)%nat + X (n - 1)%nat) / 2) /\
     forall i, (0 < i < n - 1)%nat ->
       exp (nth i logw 0) = L i * ((X (i - 1)%nat - X (i + 1)%nat) / 2)).
Proof.
  intros r sim logx logw Hd Hx Hw n X L.
  destruct (get_logw_facts _ _ _ Hw Hd) as (K1 & K2 & K3 & K4 & K5 & _). split; auto.
  assert (Hlx : length logx = n).
  { destruct (logx_facts _ _ _ Hx Hd) as (L1 & _). lia. }
  apply get_logx_ok in Hx as (_ & _ & Hx).
  assert (Hs : forall i, (i < n)%nat -> exp (nth i logw 0) = share r sim i * L i) by (intros; apply K5; auto).
  unfold share in Hs. rewrite <- Hx in Hs. unfold volume_at in Hs. rewrite map_length, Hlx in Hs. fold n in Hs.
  split.
  - intros H1. rewrite Hs by lia. destruct (Nat.eqb_spec n 1); [lra|lia].
  - intros H2. destruct (Nat.eqb_spec n 1); [lia|]. split; [|split].
    + rewrite Hs by lia. cbn match. rewrite !nth_map_exp by lia. fold (X 0%nat) (X 1%nat). change (0 =? 0)%nat with true. lra.
    + rewrite Hs by lia. destruct (Nat.eqb_spec (n - 1) 0); [lia|].
      destruct (Nat.eqb_spec (S (n - 1)) n); [|lia]. rewrite !nth_map_exp by lia.
      replace (n - 1 - 1)%nat with (n - 2)%nat by lia. fold (X (n - 2)%nat) (X (n - 1)%nat). lra.
    + intros i Hi. rewrite Hs by lia. destruct (Nat.eqb_spec i 0); [lia|].
      destruct (Nat.eqb_spec (S i) n); [lia|]. rewrite !nth_map_exp by lia.
      fold (X (i - 1)%nat) (X (i + 1)%nat). lra.
Qed.
Print Assumptions C31_trapezium_rule.
Definition run_w : run :=
  mkRun [1; 3; 5; 6]%Z [[10]; [30]; [50]; [60]]%Z [2; 2; 2; 1]%Z (Some [0; 0; 1; 0]%Z)
        (Some [(NInf, 6); (NInf, 5)]%Z) None None.
Example C31_example : exists logx logw, get_logx (nlive_array run_w) None = Ok logx /\
    get_logw run_w None = Ok logw /\ length logw = 4%nat.
Proof. eexists _, _. split; [reflexivity|]. split; [reflexivity|]. reflexivity. Qed.

(** ** C30 *)

Theorem C30_weights_partition_prior : forall r sim,
    draws_ok sim (length (nlive_array r)) ->
    logl r <> [] -> length (nlive_array r) = length (logl r) ->
    (forall n, In n (nlive_array r) -> (0 < n)%Z) ->
    exists logw, get_logw r sim = Ok logw /\ length logw = length (logl r) /\
      let v := fun i => exp (nth i logw 0 - fval (nth i (logl r) 0%Z)) in
      (forall i, (i < length (logl r))%nat -> 0 < v i) /\
      sumR (map v (seq 0 (length (logl r)))) = 1.
Proof.
  intros r sim Hd Hne Hlen Hpos.
  assert (Hn : nlive_array r <> []).
  { intros H. rewrite H in Hlen. destruct (logl r); [congruence|discriminate]. }
  destruct (get_logw_run r sim Hn Hpos Hlen Hd) as (logw & Hw). exists logw. split; auto.
  destruct (get_logw_facts _ _ _ Hw Hd) as (K1 & K2 & K3 & K4 & K5 & K6). split; auto. cbn zeta.
  assert (Hv : forall i, (i < length (logl r))%nat ->
             exp (nth i logw 0 - fval (nth i (logl r) 0%Z)) = share r sim i).
  { intros i Hi. destruct (K5 i Hi) as [_ He]. unfold Rminus. rewrite exp_plus, exp_Ropp, He.
    pose proof (exp_pos (fval (nth i (logl r) 0%Z))). field. lra. }
  split.
  - intros i Hi. apply exp_pos.
  - etransitivity; [|exact K6]. rewrite <- rsum_sumR. f_equal. apply map_ext_in. intros i Hi. apply Hv.
    apply in_seq in Hi. lia.
Qed.
Print Assumptions C30_weights_partition_prior.
Example C30_example : logl run_w <> [] /\ length (nlive_array run_w) = length (logl run_w) /\
    forall n, In n (nlive_array run_w) -> (0 < n)%Z.
Proof. split; [discriminate|]. split; auto. intros n [<-|[<-|[<-|[<-|[]]]]]; lia. Qed.

(** ** C32 *)

Lemma lse_share : forall r sim logw, get_logw r sim = Ok logw -> draws_ok sim (length (nlive_array r)) ->
    exp (lse logw) = rsum (map (fun i => share r sim i * exp (fval (nth i (logl r) 0%Z)))
                               (seq 0 (length (logl r)))).
Proof.
  intros r sim logw Hw Hd. destruct (get_logw_facts _ _ _ Hw Hd) as (K1 & K2 & K3 & K4 & K5 & K6).
  rewrite exp_lse.
  2:{ intros H. subst logw. destruct (nlive_array r); [congruence|cbn in *; lia]. }
  rewrite <- K4. f_equal. apply nth_ext with 0 0; rewrite !map_length; [rewrite seq_length; auto|].
  intros i Hi. rewrite nth_map_exp by auto. destruct (K5 i) as [_ ->]; [lia|].
  rewrite nth_map_seq by lia. reflexivity.
Qed.

Theorem C32_evidence_bounds : forall r sim z lo hi,
    draws_ok sim (length (nlive_array r)) ->
    logz r None sim = Ok (Some z) ->
    (forall l, In l (logl r) -> (lo <= l <= hi)%Z) ->
    fval lo <= z <= fval hi /\ evidence r None sim = Ok (Some (exp z)).
Proof.
  intros r sim z lo hi Hd Hz Hl. unfold logz, evidence, logw_of in *.
  destruct (get_logw r sim) as [logw|] eqn:Hw; cbn [rbind] in *; [|discriminate].
  injection Hz as <-. split; auto.
  pose proof (lse_share _ _ _ Hw Hd) as He.
  destruct (get_logw_facts _ _ _ Hw Hd) as (K1 & K2 & K3 & K4 & K5 & K6).
  assert (Hb : forall i, In i (seq 0 (length (logl r))) ->
             0 < share r sim i /\ exp (fval lo) <= exp (fval (nth i (logl r) 0%Z)) <= exp (fval hi)).
  { intros i Hi. apply in_seq in Hi. destruct (K5 i) as [Hs _]; [lia|]. split; auto.
    destruct (Hl (nth i (logl r) 0%Z)) as [H1 H2]; [apply nth_In; lia|].
    assert (E : forall a b, (a <= b)%Z -> exp (fval a) <= exp (fval b)).
    { intros a b Hab. destruct (Z.eq_dec a b) as [->|]; [lra|]. apply Rlt_le, exp_increasing, fval_lt. lia. }
    split; apply E; auto. }
  assert (H1 : exp (fval lo) <= exp (lse logw)).
  { rewrite He, <- (Rmult_1_r (exp (fval lo))), <- K6, <- rsum_scale. apply rsum_le.
    intros i Hi. destruct (Hb i Hi). nra. }
  assert (H2 : exp (lse logw) <= exp (fval hi)).
  { rewrite He, <- (Rmult_1_r (exp (fval hi))), <- K6, <- rsum_scale. apply rsum_le.
    intros i Hi. destruct (Hb i Hi). nra. }
  split; apply Rnot_lt_le; intros H; apply exp_increasing in H; lra.
Qed.
Print Assumptions C32_evidence_bounds.

(** Adding a constant to every logl. *)
Definition shift_logl (c : Z) (r : run) : run :=
  mkRun (map (fun l => (l + c)%Z) (logl r)) (theta r) (nlive_array r) (thread_labels r)
        (thread_min_max r) (output r) (settings r).

Lemma map2_plus_shift : forall a b c, map2 Rplus a (map fval (map (fun l => (l + c)%Z) b)) =
    map (fun x => x + fval c) (map2 Rplus a (map fval b)).
Proof.
  intros a b c. revert a. induction b as [|y b IH]; intros [|x a]; try reflexivity.
  unfold map2 in *. cbn. rewrite IH, fval_add. f_equal. lra.
Qed.
Lemma get_logw_shift : forall c r sim,
    get_logw (shift_logl c r) sim =
    let! logw := get_logw r sim in Ok (map (fun x => x + fval c) logw).
Proof.
  intros c r sim. unfold get_logw, shift_logl. cbn [nlive_array logl].
  destruct (get_logx (nlive_array r) sim) as [logx|]; cbn [rbind]; auto.
  rewrite !map_length. destruct (length logx =? length (logl r))%nat; auto.
  destruct (length (logl r) =? 1)%nat; cbn [rbind].
  - f_equal. rewrite !map_map. apply map_ext. intros. apply fval_add.
  - f_equal. apply map2_plus_shift.
Qed.
Lemma rel_shift : forall c logw, rel (map (fun x => x + c) logw) = rel logw.
Proof.
  intros c logw. destruct logw as [|x t]; [reflexivity|]. set (l := x :: t).
  assert (Hl : l <> []) by discriminate. unfold rel.
  assert (Hm : rmax (map (fun x => x + c) l) = rmax l + c).
  { destruct (rmax_spec l Hl) as [H1 H2]. apply rmax_unique.
    - apply in_map_iff. eauto.
    - intros y Hy. apply in_map_iff in Hy as (z & <- & Hz). specialize (H2 z Hz). lra. }
  rewrite Hm, map_map. apply map_ext. intros a. f_equal. lra.
Qed.
Lemma lse_shift : forall c logw, logw <> [] -> lse (map (fun x => x + c) logw) = lse logw + c.
Proof.
  intros c logw Hn. apply exp_inv. rewrite exp_plus, !exp_lse; auto.
  - rewrite map_map, (map_ext _ (fun x => exp c * exp x)) by (intros; rewrite exp_plus; lra).
    rewrite rsum_scale. lra.
  - destruct logw; [congruence|discriminate].
Qed.

Theorem C32_shift : forall c srt r sim,
    draws_ok sim (length (nlive_array r)) ->
    (forall z, logz r None sim = Ok (Some z) -> logz (shift_logl c r) None sim = Ok (Some (z + fval c))) /\
    (forall z, evidence r None sim = Ok (Some z) ->
               evidence (shift_logl c r) None sim = Ok (Some (z * exp (fval c)))) /\
    (forall e, match e with Logz | Evidence => False | _ => True end ->
               estimate srt e (shift_logl c r) None sim = estimate srt e r None sim).
Proof.
  intros c srt r sim Hd.
  assert (Hn : forall logw, get_logw r sim = Ok logw -> logw <> []).
  { intros logw Hw. destruct (get_logw_facts _ _ _ Hw Hd) as (K1 & K2 & K3 & K4 & _).
    intros ->. destruct (nlive_array r); [congruence|cbn in *; lia]. }
  split; [|split].
  - intros z Hz. unfold logz, logw_of in *. rewrite get_logw_shift.
    destruct (get_logw r sim) as [logw|]; cbn [rbind] in *; [|discriminate].
    injection Hz as <-. rewrite lse_shift; auto.
  - intros z Hz. unfold evidence, logw_of in *. rewrite get_logw_shift.
    destruct (get_logw r sim) as [logw|]; cbn [rbind] in *; [|discriminate].
    injection Hz as <-. rewrite lse_shift, exp_plus; auto.
  - intros e He. destruct e; try destruct He; cbn [estimate]; unfold count_samples, r_mean, param_mean,
      param_squared_mean, param_cred, r_cred, logw_of; rewrite ?get_logw_shift;
      try (destruct (get_logw r sim) as [logw|]; cbn [rbind]; [|reflexivity]; rewrite ?rel_shift; reflexivity).
    unfold shift_logl. cbn [logl]. rewrite map_length. auto.
Qed.
Print Assumptions C32_shift.
Example C32_example : exists z, logz run_w None None = Ok (Some z) /\ fval 1 <= z <= fval 6.
Proof.
  assert (H : exists z, logz run_w None None = Ok (Some z)) by (eexists; reflexivity).
  destruct H as [z Hz]. exists z. split; auto.
  apply (C32_evidence_bounds run_w None z 1 6); [exact I|auto|].
  intros l [<-|[<-|[<-|[<-|[]]]]]; lia.
Qed.

(** ** C33 *)

Theorem C33_relative_weights : forall r sim logw w,
    draws_ok sim (length (nlive_array r)) ->
    get_logw r sim = Ok logw -> get_w_rel r sim = Ok w ->
    length w = length logw /\ In 1 w /\ (forall x, In x w -> 0 < x <= 1) /\
    exists c, 0 < c /\ forall i, (i < length w)%nat -> nth i w 0 = c * exp (nth i logw 0).
Proof.
  intros r sim logw w Hd Hw Hr. unfold get_w_rel in Hr. rewrite Hw in Hr. cbn in Hr. injection Hr as <-.
  assert (Hn : logw <> []).
  { destruct (get_logw_facts _ _ _ Hw Hd) as (K1 & K2 & K3 & K4 & _).
    intros ->. destruct (nlive_array r); [congruence|cbn in *; lia]. }
  destruct (rmax_spec logw Hn) as [M1 M2]. unfold rel. split; [apply map_length|]. split; [|split].
  - apply in_map_iff. exists (rmax logw). split; auto. rewrite Rminus_diag_eq, exp_0; auto.
  - intros x Hx. apply in_map_iff in Hx as (y & <- & Hy). split; [apply exp_pos|].
    rewrite <- exp_0. specialize (M2 y Hy). destruct (Req_dec (y - rmax logw) 0) as [->|]; [lra|].
    apply Rlt_le, exp_increasing. lra.
  - exists (exp (- rmax logw)). split; [apply exp_pos|]. intros i Hi. rewrite map_length in Hi.
    rewrite (map_nth_in _ _ _ _ 0) by auto. unfold Rminus. rewrite exp_plus. lra.
Qed.
Print Assumptions C33_relative_weights.

(** The weighted averages are the posterior expectations computed with the
    unnormalised weights. *)
Theorem C33_estimators_unnormalised : forall r sim logw k h x m s,
    get_logw r sim = Ok logw -> draws_ok sim (length (nlive_array r)) -> length (theta r) = length (logl r) ->
    column (theta r) k = Ok x ->
    param_mean k h r None sim = Ok (Some m) -> param_squared_mean k r None sim = Ok (Some s) ->
    let n := length (logl r) in
    let w := fun i => exp (nth i logw 0) in
    m = average n w (fun i => nth i x 0) /\ s = average n w (fun i => nth i x 0 ^ 2) /\
    r_mean r None sim = Ok (Some (average n w (fun i => nth i (radii (theta r)) 0))).
Proof.
  intros r sim logw k h x m s Hw Hd Ht Hx Hm Hs n w.
  destruct (get_logw_facts _ _ _ Hw Hd) as (K1 & K2 & K3 & K4 & _).
  assert (Hlx : length x = n).
  { unfold column in Hx. destruct (_ && _)%bool; [|discriminate]. injection Hx as <-. rewrite map_length. auto. }
  assert (Hn : (0 < n)%nat).
  { unfold n. destruct (logl r); cbn; [|lia]. destruct (nlive_array r); [congruence|cbn in *; lia]. }
  set (c := exp (- rmax logw)). assert (Hc : 0 < c) by apply exp_pos.
  assert (Hrel : rel logw = map (fun i => c * w i) (seq 0 n)).
  { apply nth_ext with 0 0; unfold rel; rewrite !map_length; rewrite ?seq_length; auto.
    intros i Hi. rewrite (map_nth_in _ _ _ _ 0) by auto. rewrite nth_map_seq by lia.
    unfold c, w, Rminus. rewrite exp_plus. lra. }
  assert (Hsum : 0 < rsum (map w (seq 0 n))).
  { apply rsum_pos; [destruct n; [lia|discriminate]|]. intros y Hy. apply in_map_iff in Hy as (i & <- & _).
    apply exp_pos. }
  assert (Hmul : forall y, length y = n -> map2 Rmult (rel logw) y =
            map (fun i => c * (w i * nth i y 0)) (seq 0 n)).
  { intros y Hy. apply nth_ext with 0 0.
    - rewrite map2_length, Hrel, !map_length, seq_length. lia.
    - rewrite map2_length, Hrel, map_length, seq_length. intros i Hi.
      rewrite (nth_map2 _ _ _ _ _ _ _ 0 0) by (rewrite ?map_length, ?seq_length; lia).
      rewrite !nth_map_seq by lia. lra. }
  assert (Hav : forall y, length y = n -> wmean (rel logw) y = average n w (fun i => nth i y 0)).
  { intros y Hy. unfold wmean, average. rewrite Hmul by auto. rewrite Hrel.
    rewrite !rsum_scale; change sumR with rsum. field. split; lra. }
  unfold param_mean, param_squared_mean, r_mean, logw_of in *. rewrite Hw in *. cbn [rbind] in *.
  rewrite Hx in *. cbn [rbind] in *. injection Hm as <-. injection Hs as <-.
  split; [apply Hav; auto|]. split.
  - assert (Hp : forall i, (i < n)%nat -> nth i (map (fun v => v ^ 2) x) 0 = nth i x 0 ^ 2).
    { intros i Hi. rewrite (map_nth_in _ _ _ _ 0) by lia. auto. }
    transitivity (average n w (fun i => nth i (map (fun v => v ^ 2) x) 0)).
    + rewrite <- Hav by (rewrite map_length; auto). unfold wmean, map2.
      rewrite <- rsum_div. f_equal.
      assert (Hc2 : forall (f : R -> R) (a b : list R), combine (map f a) b = map (fun p => (f (fst p), snd p)) (combine a b)).
      { intros f a. induction a as [|u a IH]; intros [|v b]; cbn; auto. f_equal. auto. }
      rewrite Hc2, map_map. apply map_ext. intros [u v]. cbn [fst snd]. unfold Rdiv. lra.
    + unfold average. f_equal. f_equal. apply map_ext_in. intros i Hi. apply in_seq in Hi.
      rewrite Hp by lia. auto.
  - do 2 f_equal. apply Hav. unfold radii. rewrite map_length. auto.
Qed.
Print Assumptions C33_estimators_unnormalised.
Example C33_example : exists logw, get_logw run_w None = Ok logw /\ length (theta run_w) = length (logl run_w) /\
    column (theta run_w) 0 = Ok (map fval [10; 30; 50; 60]%Z) /\
    column (theta run_w) (-1) = column (theta run_w) 0 /\ column (theta run_w) 1 = Raise IndexError.
Proof. eexists. repeat split. Qed.
