(** C100: the weights with rounded arithmetic. *)
From Coq Require Import Lra.
From Verif Require Import Base ModelRun ModelReal ModelRound ProofBase SpecReal ProofReal ProofRound Ariths.
Local Open Scope R_scope.

(** ** Proofs *)
Section proofs.
Context (A : arith) (HA : sound A).
Lemma steps_sound : forall nlive sim, (forall n, In n nlive -> (1 <= n)%Z) -> draws_ok sim (length nlive) ->
    exists ss, match sim with
               | Some us => map2 (fun u n => xdiv A (xlog A (XNum u)) (XNum (rnd A (IZR n)))) us nlive
               | None => map (fun n => xmul A (XNum (-1)) (xdiv A (XNum 1) (XNum (rnd A (IZR n))))) nlive
               end = map XNum ss /\ length ss = length nlive /\ (forall x, In x ss -> x <= 0 /\ rnd A x = x).
Proof.
  assert (Hr : forall n, (1 <= n)%Z -> 1 <= rnd A (IZR n)).
  { intros n Hn. apply rnd_ge1; auto. apply IZR_le in Hn. auto. }
  intros nlive [us|] Hn Hd.
  - destruct Hd as [Hl Hu]. revert us Hl Hu. induction nlive as [|n t IH]; intros [|u us] Hl Hu; cbn in Hl; try lia.
    + exists []. split; auto. split; auto. intros x [].
    + destruct (IH ltac:(intros; apply Hn; right; auto) us) as (ss & E & L & S); [lia|intros; apply Hu; right; auto|].
      specialize (Hr n (Hn n (or_introl eq_refl))). destruct (Hu u (or_introl eq_refl)) as [U1 U2].
      exists (rnd A (flog A u / rnd A (IZR n)) :: ss). unfold map2 in *. cbn [combine map fst snd length]. rewrite E. split; [f_equal|split; auto].
      * cbn [xlog]. destruct (Rlt_dec 0 u); [|lra]. cbn [xdiv]. destruct (Req_EM_T (rnd A (IZR n)) 0); [lra|auto].
      * intros x [<-|Hx]; auto. split; [|apply (s_idem A HA)]. apply rnd_le0; auto.
        pose proof (log_le0 A HA u U1 ltac:(lra)) as Hlog. unfold Rdiv.
        assert (0 < / rnd A (IZR n)) by (apply Rinv_0_lt_compat; lra). nra.
  - clear Hd. induction nlive as [|n t IH].
    + exists []. split; auto. split; auto. intros x [].
    + destruct IH as (ss & E & L & S); [intros; apply Hn; right; auto|].
      specialize (Hr n (Hn n (or_introl eq_refl))).
      exists (rnd A (-1 * rnd A (1 / rnd A (IZR n))) :: ss). cbn [map length]. rewrite E. split; [f_equal|split; auto].
      * cbn [xdiv]. destruct (Req_EM_T (rnd A (IZR n)) 0); [lra|auto].
      * intros x [<-|Hx]; auto. split; [|apply (s_idem A HA)]. apply rnd_le0; auto.
        assert (0 <= rnd A (1 / rnd A (IZR n))); [|lra]. apply rnd_ge0; auto. unfold Rdiv.
        assert (0 < / rnd A (IZR n)) by (apply Rinv_0_lt_compat; lra). lra.
Qed.

Lemma logx_inv : forall nlive sim logx, x_logx A nlive sim = Ok logx ->
    nlive <> [] /\ (forall n, In n nlive -> (1 <= n)%Z) /\
    logx = xcumsum A match sim with
               | Some us => map2 (fun u n => xdiv A (xlog A (XNum u)) (XNum (rnd A (IZR n)))) us nlive
               | None => map (fun n => xmul A (XNum (-1)) (xdiv A (XNum 1) (XNum (rnd A (IZR n))))) nlive
               end.
Proof.
  intros nlive sim logx H. destruct nlive as [|n0 t]; [discriminate|]. unfold x_logx in H.
  destruct (0 <? min_list (n0 :: t))%Z eqn:Hm; [|discriminate]. cbn [assertb rbind] in H. injection H as <-.
  split; [discriminate|]. split; auto. intros n Hn. apply Z.ltb_lt in Hm.
  destruct (min_list_spec (n0 :: t)) as [_ H2]; [discriminate|]. specialize (H2 n Hn). lia.
Qed.
Lemma logx_sound : forall nlive sim logx, draws_ok sim (length nlive) ->
    x_logx A nlive sim = Ok logx ->
    exists xs, logx = map XNum xs /\ length xs = length nlive /\ StronglySorted Rge xs /\ (forall x, In x xs -> x <= 0).
Proof.
  intros nlive sim logx Hd H. destruct (logx_inv _ _ _ H) as (H1 & H2 & ->).
  destruct (steps_sound nlive sim H2 Hd) as (ss & -> & L & S).
  destruct (cumsum_sound A HA ss S) as (xs & E & L2 & S2 & N). exists xs. rewrite L2. auto.
Qed.
Lemma logw_inv : forall r sim logw, x_logw A r sim = Ok logw ->
    exists logx, x_logx A (nlive_array r) sim = Ok logx /\ length logx = length (logl r) /\
      (length (logl r) = 1%nat /\ logw = map (fun z => XNum (fval z)) (logl r) \/
       length (logl r) <> 1%nat /\ logw = map2 (xadd A) (x_trapezium A logx) (map (fun z => XNum (fval z)) (logl r))).
Proof.
  intros r sim logw H. unfold x_logw in H. destruct (x_logx A (nlive_array r) sim) as [logx|e]; [|discriminate].
  cbn [rbind] in H. rewrite map_length in H. destruct (length logx =? length (logl r))%nat eqn:E1; [|discriminate].
  apply Nat.eqb_eq in E1. exists logx. split; auto. split; auto.
  destruct (length (logl r) =? 1)%nat eqn:E2; injection H as <-.
  - left. apply Nat.eqb_eq in E2. auto.
  - right. apply Nat.eqb_neq in E2. auto.
Qed.
Lemma logw_sound : forall r sim logw, draws_ok sim (length (nlive_array r)) ->
    (forall l, In l (logl r) -> rnd A (fval l) = fval l) -> x_logw A r sim = Ok logw ->
    length logw = length (logl r) /\ logw <> [] /\
    (forall i, (i < length (logl r))%nat -> at_most A (fval (nth i (logl r) 0%Z)) (nth i logw XNan)) /\
    exists x, nth (length (logl r) - 1) logw XNan = XNum x.
Proof.
  intros r sim logw Hd Hr H. destruct (logw_inv _ _ _ H) as (logx & Hx & Hl & Hc).
  destruct (logx_sound _ _ _ Hd Hx) as (xs & -> & L & S & N). rewrite map_length in Hl.
  destruct Hc as [[H1 ->]|[H1 ->]].
  - destruct (logl r) as [|l0 [|l1 t]]; try discriminate. cbn [map length]. split; auto. split; [discriminate|]. split.
    + intros i Hi. assert (i = 0)%nat by (cbn in Hi; lia). subst. right. exists (fval l0). cbn [nth]. split; auto. split; [lra|].
      apply Hr. left. auto.
    + cbn. eauto.
  - assert (H2 : (2 <= length xs)%nat).
    { destruct (logx_inv _ _ _ Hx) as (H3 & _). destruct (nlive_array r); [congruence|]. cbn in L. lia. }
    destruct (trapezium_sound A HA xs H2 S N) as (T1 & T2 & z & T3).
    set (tz := x_trapezium A (map XNum xs)) in *. set (lg := map (fun z => XNum (fval z)) (logl r)).
    assert (Hlg : length lg = length (logl r)) by (apply map_length).
    assert (Hnth : forall i, (i < length (logl r))%nat ->
              nth i (map2 (xadd A) tz lg) XNan = xadd A (nth i tz XNan) (XNum (fval (nth i (logl r) 0%Z)))).
    { intros i Hi. unfold map2. set (f := fun p => xadd A (fst p) (snd p)).
      rewrite (nth_indep _ XNan (f (XNan, XNum (fval 0%Z)))) by (rewrite map_length, combine_length; lia).
      rewrite map_nth. rewrite combine_nth_min by lia. unfold f. cbn [fst snd]. f_equal.
      unfold lg. apply (map_nth (fun z => XNum (fval z))). }
    assert (Hlen : length (map2 (xadd A) tz lg) = length (logl r)).
    { unfold map2. rewrite map_length, combine_length. lia. }
    split; auto. split.
    { intros E. rewrite E in Hlen. cbn in Hlen. lia. }
    split.
    + intros i Hi. rewrite Hnth by auto. apply plus_logl; auto.
      * apply T2. lia.
      * apply Hr, nth_In. auto.
    + rewrite Hnth by lia. replace (length (logl r) - 1)%nat with (length xs - 1)%nat by lia. rewrite T3. cbn [xadd]. eauto.
Qed.

Definition number_or_neg (v : xval) : Prop := v = XNeg \/ exists x, v = XNum x.
Lemma xmax_sound : forall l, (forall v, In v l -> number_or_neg v) -> (exists x, In (XNum x) l) ->
    exists m, xmax l = XNum m /\ In (XNum m) l /\ forall x, In (XNum x) l -> x <= m.
Proof.
  intros [|v0 l] H [x Hx]; [contradiction|]. cbn [xmax].
  assert (Hg : (forall v, In v (v0 :: l) -> v = XNeg) /\ fold_right xmax2 v0 l = XNeg \/
               exists m, fold_right xmax2 v0 l = XNum m /\ In (XNum m) (v0 :: l) /\ forall x, In (XNum x) (v0 :: l) -> x <= m).
  { clear x Hx. induction l as [|v l IH].
    - cbn [fold_right]. destruct (H v0 (or_introl eq_refl)) as [->|[x ->]].
      + left. split; auto. intros v [<-|[]]; auto.
      + right. exists x. split; auto. split; [left; auto|]. intros y [E|[]]. injection E as ->. lra.
    - cbn [fold_right]. destruct IH as [[E1 E2]|(m & E1 & E2 & E3)].
      + intros u [<-|Hu]; apply H; [left|right; right]; auto.
      + rewrite E2. destruct (H v (or_intror (or_introl eq_refl))) as [->|[x ->]].
        * left. split; auto. intros u [<-|[<-|Hu]]; auto; apply E1; [left|right]; auto.
        * right. exists x. cbn [xmax2]. split; auto. split; [right; left; auto|].
          intros y [E|[E|Hy]].
          -- rewrite (E1 v0 (or_introl eq_refl)) in E. discriminate.
          -- injection E as ->. lra.
          -- specialize (E1 _ (or_intror Hy)). discriminate.
      + rewrite E1. destruct (H v (or_intror (or_introl eq_refl))) as [->|[x ->]]; cbn [xmax2].
        * right. exists m. split; auto. split.
          { destruct E2; [left|right; right]; auto. }
          intros y [E|[E|Hy]]; [apply E3; left; auto|discriminate|apply E3; right; auto].
        * right. exists (Rmax x m). split; auto. split.
          { destruct (Rle_dec x m); [rewrite Rmax_right by lra|rewrite Rmax_left by lra; right; left; auto].
            destruct E2; [left|right; right]; auto. }
          intros y [E|[E|Hy]].
          -- specialize (E3 y (or_introl E)). pose proof (Rmax_r x m). lra.
          -- injection E as ->. apply Rmax_l.
          -- specialize (E3 y (or_intror Hy)). pose proof (Rmax_r x m). lra. }
  destruct Hg as [[E _]|Hm]; auto. specialize (E _ Hx). discriminate.
Qed.
Lemma rel_sound : forall logw, (forall v, In v logw -> number_or_neg v) -> (exists x, In (XNum x) logw) ->
    exists ws, x_rel A logw = map XNum ws /\ length ws = length logw /\ (forall w, In w ws -> 0 <= w <= 1) /\ In 1 ws.
Proof.
  intros logw H Hx. destruct (xmax_sound logw H Hx) as (m & E & Hm & Hle). unfold x_rel. rewrite E. clear E Hx.
  assert (Hg : forall l, (forall v, In v l -> In v logw) -> exists ws,
     map (fun x => xexp A (xsub A x (XNum m))) l = map XNum ws /\ length ws = length l /\
     (forall w, In w ws -> 0 <= w <= 1) /\ (In (XNum m) l -> In 1 ws)).
  { induction l as [|v l IH]; intros Hi.
    - exists []. split; auto. split; auto. split; [intros w []|intros []].
    - destruct IH as (ws & E1 & E2 & E3 & E4); [intros; apply Hi; right; auto|].
      specialize (Hi v (or_introl eq_refl)). destruct (H v Hi) as [->|[x ->]].
      + exists (0 :: ws). cbn [map length]. rewrite E1. split; auto. split; auto. split.
        * intros w [<-|Hw]; auto. lra.
        * intros [Hv|Hv]; [discriminate|right; auto].
      + exists (fexp A (rnd A (x + - m)) :: ws). cbn [map length]. rewrite E1. split; auto. split; auto. split.
        * intros w [<-|Hw]; auto. split; [apply (s_exp_pos A HA)|]. apply exp_le1; auto. apply rnd_le0; auto.
          specialize (Hle x Hi). lra.
        * intros [Hv|Hv]; [|right; auto]. injection Hv as ->. left.
          replace (m + - m) with 0 by lra. rewrite (s_0 A HA). apply (s_exp_0 A HA). }
  destruct (Hg logw) as (ws & E1 & E2 & E3 & E4); auto. exists ws. auto.
Qed.
Lemma numbers_map : forall ws, numbers (map XNum ws) = Some ws.
Proof. induction ws as [|w t IH]; auto. cbn. rewrite IH. auto. Qed.
Lemma lse_sound : forall logw, (forall v, In v logw -> number_or_neg v) -> (exists x, In (XNum x) logw) ->
    (forall x, In (XNum x) logw -> rnd A x = x) ->
    exists z, xlse A logw = XNum z /\ forall x, In (XNum x) logw -> x <= z.
Proof.
  intros logw H Hx Hr. destruct (rel_sound logw H Hx) as (ws & E1 & _ & E3 & E4).
  destruct (xmax_sound logw H Hx) as (m & E & Hm & Hle). unfold x_rel in E1. rewrite E in E1. unfold xlse. rewrite E, E1.
  unfold xsum. rewrite numbers_map.
  pose proof (fsum_ge1 A HA ws ltac:(intros; apply E3; auto) E4) as Hs. cbn [xlog].
  destruct (Rlt_dec 0 (fsum A ws)); [|lra]. cbn [xadd]. eexists. split; [reflexivity|].
  intros x Hi. apply Rle_trans with m; auto. rewrite <- (Hr m Hm) at 1. apply (s_mono A HA).
  pose proof (log_ge0 A HA _ Hs). lra.
Qed.
Lemma sum_products : forall ws xs, exists ps, map2 (xmul A) (map XNum ws) (map XNum xs) = map XNum ps /\
    ((forall w, In w ws -> 0 <= w) -> (forall x, In x xs -> 0 <= x) -> forall p, In p ps -> 0 <= p).
Proof.
  unfold map2. induction ws as [|w ws IH]; intros xs.
  - exists []. split; auto; intros _ _ p [].
  - destruct xs as [|x xs]; [exists []; split; auto; intros _ _ p []|].
    destruct (IH xs) as (ps & E & N). exists (rnd A (w * x) :: ps). cbn [map combine fst snd xmul]. rewrite E. split; auto.
    intros Hw Hx p [<-|Hp].
    + apply rnd_ge0; auto. apply Rmult_le_pos; [apply Hw|apply Hx]; left; auto.
    + apply N; auto; intros; [apply Hw|apply Hx]; right; auto.
Qed.
Lemma wmean_sound : forall ws xs, (forall w, In w ws -> 0 <= w <= 1) -> In 1 ws ->
    exists m, x_wmean A (map XNum ws) (map XNum xs) = XNum m /\ ((forall x, In x xs -> 0 <= x) -> 0 <= m).
Proof.
  intros ws xs Hw H1. destruct (sum_products ws xs) as (ps & E & N). unfold x_wmean. rewrite E. unfold xsum.
  rewrite !numbers_map. pose proof (fsum_ge1 A HA ws ltac:(intros; apply Hw; auto) H1) as Hs. cbn [xdiv].
  destruct (Req_EM_T (fsum A ws) 0); [lra|]. eexists. split; [reflexivity|]. intros Hx. apply rnd_ge0; auto.
  assert (0 <= fsum A ps). { apply fsum_nonneg; auto. apply N; auto. intros; apply Hw; auto. }
  unfold Rdiv. apply Rmult_le_pos; auto. left. apply Rinv_0_lt_compat. lra.
Qed.
Lemma radii_sound : forall th, exists rs, x_radii A th = map XNum rs /\ forall x, In x rs -> 0 <= x.
Proof.
  induction th as [|row t IH].
  - exists []. split; auto. intros x [].
  - destruct IH as (rs & E & N). unfold x_radii in *. cbn [map]. rewrite E.
    assert (Hsq : exists sq, map (fun z => xmul A (XNum (fval z)) (XNum (fval z))) row = map XNum sq /\ forall x, In x sq -> 0 <= x).
    { clear - HA. induction row as [|z row IH]; [exists []; split; auto; intros x []|].
      destruct IH as (sq & E & N). exists (rnd A (fval z * fval z) :: sq). cbn [map]. rewrite E. split; auto.
      intros x [<-|Hx]; auto. apply rnd_ge0; auto. apply Rle_0_sqr. }
    destruct Hsq as (sq & Es & Ns). rewrite Es. unfold xsum. rewrite numbers_map. cbn [xsqrt].
    pose proof (fsum_nonneg A HA sq Ns). destruct (Rle_dec 0 (fsum A sq)); [|lra].
    exists (rnd A (sqrt (fsum A sq)) :: rs). split; auto. intros x [<-|Hx]; auto. apply rnd_ge0; auto. apply sqrt_pos.
Qed.
Lemma logw_shape : forall r sim logw, draws_ok sim (length (nlive_array r)) ->
    (forall l, In l (logl r) -> rnd A (fval l) = fval l) -> x_logw A r sim = Ok logw ->
    (forall v, In v logw -> number_or_neg v) /\ (exists x, In (XNum x) logw) /\ (forall x, In (XNum x) logw -> rnd A x = x).
Proof.
  intros r sim logw Hd Hr H. destruct (logw_sound r sim logw Hd Hr H) as (L & N & Hi & z & Hz).
  assert (Hv : forall v, In v logw -> exists b, at_most A b v).
  { intros v Hv. destruct (In_nth _ _ XNan Hv) as (i & Hlt & <-). eexists. apply Hi. lia. }
  split; [|split].
  - intros v H0. destruct (Hv v H0) as (b & [->|(x & -> & _)]); [left|right]; eauto.
  - exists z. rewrite <- Hz. apply nth_In. destruct logw; [congruence|]. cbn in *. lia.
  - intros x Hx. destruct (Hv _ Hx) as (b & [E|(y & E & _ & Hy)]); [discriminate|]. injection E as ->. auto.
Qed.
End proofs.

(** ** C100 *)

(** The computed log-volumes do not increase and are not positive. *)
Theorem C100_logx : forall A nlive sim logx, sound A -> draws_ok sim (length nlive) ->
    x_logx A nlive sim = Ok logx ->
    exists xs, logx = map XNum xs /\ length xs = length nlive /\
      StronglySorted Rge xs /\ (forall x, In x xs -> x <= 0).
Proof. intros A nlive sim logx HA. apply logx_sound. auto. Qed.
Print Assumptions C100_logx.

(** No log-weight is nan or +inf; none is above the log-likelihood; the last one
    is not -inf. *)
Theorem C100_logw : forall A r sim logw, sound A -> draws_ok sim (length (nlive_array r)) ->
    (forall l, In l (logl r) -> rnd A (fval l) = fval l) -> x_logw A r sim = Ok logw ->
    length logw = length (logl r) /\
    (forall i, (i < length (logl r))%nat ->
       nth i logw XNan = XNeg \/ exists x, nth i logw XNan = XNum x /\ x <= fval (nth i (logl r) 0%Z)) /\
    exists x, nth (length (logl r) - 1) logw XNan = XNum x.
Proof.
  intros A r sim logw HA Hd Hr H. destruct (logw_sound A HA r sim logw Hd Hr H) as (L & N & Hi & Hz).
  split; auto. split; auto. intros i Hlt. destruct (Hi i Hlt) as [E|(x & E & Hx & _)]; eauto.
Qed.
Print Assumptions C100_logw.

(** The relative weights are between 0 and 1, and one of them is exactly 1. *)
Theorem C100_w_rel : forall A r sim w, sound A -> draws_ok sim (length (nlive_array r)) ->
    (forall l, In l (logl r) -> rnd A (fval l) = fval l) -> x_w_rel A r sim = Ok w ->
    exists ws, w = map XNum ws /\ length ws = length (logl r) /\ (forall x, In x ws -> 0 <= x <= 1) /\ In 1 ws.
Proof.
  intros A r sim w HA Hd Hr H. unfold x_w_rel in H. destruct (x_logw A r sim) as [logw|e] eqn:E; [|discriminate].
  cbn [rbind] in H. injection H as <-. destruct (logw_shape A HA r sim logw Hd Hr E) as (H1 & H2 & _).
  destruct (logw_sound A HA r sim logw Hd Hr E) as (L & _).
  destruct (rel_sound A HA logw H1 H2) as (ws & E1 & E2 & E3 & E4). exists ws. rewrite E2, L. auto.
Qed.
Print Assumptions C100_w_rel.

(** So no estimate is nan or infinite: the computed log-evidence is a number, at
    least each log-weight, and there is no division by zero in the means. *)
Theorem C100_estimates : forall A r sim logw, sound A -> draws_ok sim (length (nlive_array r)) ->
    (forall l, In l (logl r) -> rnd A (fval l) = fval l) -> x_logw A r sim = Ok logw ->
    (exists z e, x_logz A r sim = Ok (XNum z) /\ x_evidence A r sim = Ok (XNum e) /\ 0 <= e /\
       forall x, In (XNum x) logw -> x <= z) /\
    (exists m, x_r_mean A r sim = Ok (XNum m) /\ 0 <= m) /\
    (forall k c, column (theta r) k = Ok c ->
       (exists m, x_param_mean A k r sim = Ok (XNum m) /\ ((forall x, In x c -> 0 <= x) -> 0 <= m)) /\
       (exists m, x_param_squared_mean A k r sim = Ok (XNum m) /\ 0 <= m)).
Proof.
  intros A r sim logw HA Hd Hr E. destruct (logw_shape A HA r sim logw Hd Hr E) as (H1 & H2 & H3).
  destruct (rel_sound A HA logw H1 H2) as (ws & E1 & E2 & E3 & E4).
  split; [|split].
  - destruct (lse_sound A HA logw H1 H2 H3) as (z & Hz & Hle). exists z, (fexp A z).
    unfold x_evidence, x_logz. rewrite E. cbn [rbind]. rewrite Hz. split; auto. split; auto. split; auto. apply (s_exp_pos A HA).
  - unfold x_r_mean. rewrite E. cbn [rbind]. rewrite E1. destruct (radii_sound A HA (theta r)) as (rs & -> & N).
    destruct (wmean_sound A HA ws rs E3 E4) as (m & -> & Hm). exists m. auto.
  - intros k c Hc. unfold x_param_mean, x_param_squared_mean, x_column. rewrite E, Hc. cbn [rbind]. rewrite E1. split.
    + destruct (wmean_sound A HA ws c E3 E4) as (m & -> & Hm). exists m. auto.
    + unfold xsum at 2. rewrite numbers_map. pose proof (fsum_ge1 A HA ws ltac:(intros; apply E3; auto) E4) as Hs.
      assert (Ha : exists vs, map (fun a => xdiv A a (XNum (fsum A ws))) (map XNum ws) = map XNum vs /\ forall v, In v vs -> 0 <= v).
      { assert (E5 : forall w, In w ws -> 0 <= w) by (intros; apply E3; auto). clear - Hs E5 HA. revert Hs. generalize (fsum A ws). intros s Hs.
        induction ws as [|w ws IH]; [exists []; split; auto; intros v []|].
        destruct IH as (vs & E & N); [intros; apply E5; right; auto|]. exists (rnd A (w / s) :: vs). cbn [map]. rewrite E. split.
        - f_equal. cbn [xdiv]. destruct (Req_EM_T s 0); [lra|auto].
        - intros v [<-|Hv]; auto. apply rnd_ge0; auto. unfold Rdiv. apply Rmult_le_pos; [apply E5; left; auto|].
          left. apply Rinv_0_lt_compat. lra. }
      destruct Ha as (vs & -> & Hv).
      assert (Hq : exists qs, map (fun a => xmul A a a) (map XNum c) = map XNum qs /\ forall q, In q qs -> 0 <= q).
      { clear - HA. induction c as [|x c IH]; [exists []; split; auto; intros q []|]. destruct IH as (qs & E & N).
        exists (rnd A (x * x) :: qs). cbn [map]. rewrite E. split; auto. intros q [<-|Hq]; auto.
        apply rnd_ge0; auto. apply Rle_0_sqr. }
      destruct Hq as (qs & -> & Hq). destruct (sum_products A HA vs qs) as (ps & -> & N). unfold xsum. rewrite numbers_map.
      eexists. split; [reflexivity|]. apply fsum_nonneg; auto.
Qed.
Print Assumptions C100_estimates.

(** The errors do not depend on the arithmetic. *)
Theorem C100_errors : forall A r sim,
    match x_logw A r sim, get_logw r sim with
    | Ok a, Ok b => length a = length b
    | Raise e, Raise e' => e = e'
    | _, _ => False
    end.
Proof.
  intros A r sim. unfold x_logw, get_logw, x_logx, get_logx. destruct (nlive_array r) as [|n0 t]; [reflexivity|].
  destruct (0 <? min_list (n0 :: t))%Z; [|reflexivity]. cbn [assertb rbind]. rewrite !map_length.
  assert (L1 : forall s l, length (xcumsum_from A s l) = length l) by (intros s l; revert s; induction l; intros; cbn; auto).
  assert (L2 : forall l, length (xcumsum A l) = length l) by (intros [|x l]; cbn; auto).
  rewrite L2. unfold cumsum.
  assert (L3 : forall s l, length (cumsum_from s l) = length l) by (intros s l; revert s; induction l; intros; cbn; auto).
  rewrite L3.
  assert (L4 : length match sim with
               | Some us => map2 (fun u n => xdiv A (xlog A (XNum u)) (XNum (rnd A (IZR n)))) us (n0 :: t)
               | None => map (fun n => xmul A (XNum (-1)) (xdiv A (XNum 1) (XNum (rnd A (IZR n))))) (n0 :: t)
               end = length match sim with
                 | Some us => map2 (fun u n => ln u / IZR n) us (n0 :: t)
                 | None => map (fun n => -1 * / IZR n) (n0 :: t)
                 end).
  { destruct sim; unfold map2; rewrite !map_length; auto. }
  rewrite L4. set (xx := length match sim with Some us => map2 (fun u n => ln u / IZR n) us (n0 :: t) | None => _ end) in *.
  destruct (xx =? length (logl r))%nat eqn:E; auto.
  destruct (length (logl r) =? 1)%nat; [rewrite !map_length; auto|].
  unfold map2 at 1 3. rewrite !map_length, !combine_length, !map_length. f_equal.
  set (a := xcumsum A _). set (b := cumsum_from _ _).
  assert (Hab : length a = length b) by (unfold a, b; rewrite L2, L3, L4; auto).
  clearbody a b. destruct a as [|a0 [|a1 a]], b as [|b0 [|b1 b]]; try discriminate; auto.
  cbn in Hab. cbn [x_trapezium trapezium length]. rewrite !app_length. unfold map2. rewrite !map_length, !combine_length. cbn [length]. lia.
Qed.
Print Assumptions C100_errors.

(** ** A random number 0 *)

Lemma xadd_neg : forall A a b, number_or_neg a -> number_or_neg b -> number_or_neg (xadd A a b).
Proof. intros A a b [->|[x ->]] [->|[y ->]]; cbn; unfold number_or_neg; eauto. Qed.
Lemma cumsum_from_neg : forall A l s k, (forall v, In v l -> number_or_neg v) -> s = XNeg -> (k < length l)%nat ->
    nth k (xcumsum_from A s l) XNan = XNeg.
Proof.
  induction l as [|v l IH]; intros s k H -> Hk; cbn in Hk; [lia|].
  assert (E : xadd A XNeg v = XNeg) by (destruct (H v (or_introl eq_refl)) as [->|[x ->]]; auto).
  cbn [xcumsum_from]. rewrite E. destruct k as [|k]; auto. cbn [nth]. apply IH; auto; [intros; apply H; right; auto|lia].
Qed.
Lemma cumsum_from_after : forall A l s i k, (forall v, In v l -> number_or_neg v) -> number_or_neg s ->
    (i <= k < length l)%nat -> nth i l XNan = XNeg -> nth k (xcumsum_from A s l) XNan = XNeg.
Proof.
  induction l as [|v l IH]; intros s i k H Hs Hk Hi; cbn in Hk; [lia|]. cbn [xcumsum_from]. destruct i as [|i].
  - cbn in Hi. subst v. assert (E : xadd A s XNeg = XNeg) by (destruct Hs as [->|[x ->]]; auto). rewrite E.
    destruct k as [|k]; auto. cbn [nth]. apply cumsum_from_neg; auto; [intros; apply H; right; auto|lia].
  - destruct k as [|k]; [lia|]. cbn [nth] in *. apply IH with i; auto; try lia.
    + intros; apply H; right; auto.
    + apply xadd_neg; auto. apply H. left. auto.
Qed.
Lemma cumsum_after : forall A l i k, (forall v, In v l -> number_or_neg v) ->
    (i <= k < length l)%nat -> nth i l XNan = XNeg -> nth k (xcumsum A l) XNan = XNeg.
Proof.
  intros A [|v l] i k H Hk Hi; cbn in Hk; [lia|]. cbn [xcumsum]. destruct i as [|i].
  - cbn in Hi. subst v. destruct k as [|k]; auto. cbn [nth]. apply cumsum_from_neg; auto; [intros; apply H; right; auto|lia].
  - destruct k as [|k]; [lia|]. cbn [nth] in *. apply cumsum_from_after with i; auto; try lia.
    + intros; apply H; right; auto.
    + apply H. left. auto.
Qed.
Lemma xmax_nan : forall l, In XNan l -> xmax l = XNan.
Proof.
  intros [|v l] H; [contradiction|]. cbn [xmax]. induction l as [|u l IH].
  - destruct H as [->|[]]. auto.
  - cbn [fold_right]. destruct H as [->|[->|H]].
    + rewrite IH by (left; auto). destruct u; auto.
    + auto.
    + rewrite IH by (right; auto). destruct u; auto.
Qed.

(** np.random.random may return 0 exactly (its values are below 1 but not above
    0).  The logarithm is then -inf, and unless it is one of the last two
    numbers drawn, all relative weights are nan. *)
Theorem C100_zero_draw : forall A r us i w, sound A ->
    length us = length (nlive_array r) -> (forall u, In u us -> 0 <= u < 1) ->
    (i + 2 < length us)%nat -> nth i us 1 = 0 -> x_w_rel A r (Some us) = Ok w ->
    w <> [] /\ forall v, In v w -> v = XNan.
Proof.
  intros A r us i w HA Hl Hu Hi H0 H. unfold x_w_rel in H. destruct (x_logw A r (Some us)) as [logw|e] eqn:E; [|discriminate].
  cbn [rbind] in H. injection H as <-. destruct (logw_inv A r (Some us) logw E) as (logx & Hx & Hlx & Hc).
  destruct (logx_inv A _ _ _ Hx) as (Hne & Hn & Ex).
  set (f := fun u n => xdiv A (xlog A (XNum u)) (XNum (rnd A (IZR n)))) in *.
  assert (Hf : forall u n, 0 <= u < 1 -> (1 <= n)%Z -> number_or_neg (f u n) /\ (u = 0 -> f u n = XNeg)).
  { intros u n Hu1 Hn1. assert (Hr : 1 <= rnd A (IZR n)) by (apply rnd_ge1; auto; apply IZR_le in Hn1; auto).
    unfold f. cbn [xlog]. destruct (Rlt_dec 0 u) as [Hp|Hp].
    - split; [|lra]. cbn [xdiv]. destruct (Req_EM_T (rnd A (IZR n)) 0); [lra|]. right; eauto.
    - assert (u = 0) by lra. subst u. destruct (Req_EM_T 0 0); [|congruence]. cbn [xdiv].
      destruct (Rlt_dec 0 (rnd A (IZR n))); [|lra]. split; auto. left; auto. }
  assert (Hst : forall v, In v (map2 f us (nlive_array r)) -> number_or_neg v).
  { intros v Hv. unfold map2 in Hv. apply in_map_iff in Hv as ([u n] & <- & Hv). cbn [fst snd].
    apply Hf; [apply Hu; eapply in_combine_l; eauto|apply Hn; eapply in_combine_r; eauto]. }
  assert (Hlen : length (map2 f us (nlive_array r)) = length us) by (unfold map2; rewrite map_length, combine_length; lia).
  assert (Hsi : nth i (map2 f us (nlive_array r)) XNan = XNeg).
  { unfold map2. set (g := fun p => f (fst p) (snd p)).
    rewrite (nth_indep _ XNan (g (1, 0%Z))) by (rewrite map_length, combine_length; lia). rewrite map_nth.
    rewrite combine_nth_min by lia. unfold g. cbn [fst snd]. rewrite H0. apply Hf; try lra; auto.
    apply Hn, nth_In. lia. }
  assert (Hn1 : nth i logx XNan = XNeg) by (rewrite Ex; apply cumsum_after with i; auto; lia).
  assert (Hn2 : nth (i + 2) logx XNan = XNeg) by (rewrite Ex; apply cumsum_after with i; auto; lia).
  assert (Hll : length logx = length us).
  { rewrite Ex. assert (L1 : forall s l, length (xcumsum_from A s l) = length l) by (intros s l; revert s; induction l; intros; cbn; auto).
    destruct (map2 f us (nlive_array r)) as [|a b] eqn:Em; [cbn in Hlen; lia|]. cbn [xcumsum length]. rewrite L1. auto. }
  destruct Hc as [[H1 _]|[_ ->]]; [lia|].
  assert (Hlw : length (map2 (xadd A) (x_trapezium A logx) (map (fun z => XNum (fval z)) (logl r))) = length us /\
      nth (i + 1) (map2 (xadd A) (x_trapezium A logx) (map (fun z => XNum (fval z)) (logl r))) (xadd A XNan XNan) = XNan).
  { destruct logx as [|x0 [|x1 rest]]; cbn [length] in Hll; try lia.
    assert (Hr2 : nth i rest XNan = XNeg) by (replace (i + 2)%nat with (S (S i)) in Hn2 by lia; exact Hn2).
    assert (Hlr : (i < length rest)%nat) by lia.
    set (l := x0 :: x1 :: rest) in *.
    assert (Ht : length (x_trapezium A l) = length us /\ nth (i + 1) (x_trapezium A l) XNan = XNan).
    { unfold x_trapezium, l. fold l.
      set (mid := map (fun d => xsub A d (xlog A (XNum 2))) (map2 (x_log_subtract A) l rest)).
      assert (Hlm : length mid = length rest).
      { unfold mid, map2. rewrite !map_length, combine_length. apply Nat.min_r. unfold l. cbn [length]. lia. }
      split; [cbn [length]; rewrite app_length; cbn [length]; lia|].
      replace (i + 1)%nat with (S i) by lia. cbn [nth]. rewrite app_nth1 by lia. unfold mid.
      rewrite (nth_indep _ XNan (xsub A (x_log_subtract A XNan XNan) (xlog A (XNum 2)))) by (unfold mid in Hlm; lia).
      rewrite (map_nth (fun d => xsub A d (xlog A (XNum 2)))). unfold map2.
      rewrite (map_nth (fun p => x_log_subtract A (fst p) (snd p)) _ (XNan, XNan)).
      rewrite combine_nth_min by (unfold l; cbn [length]; lia). cbn [fst snd]. rewrite Hn1, Hr2. reflexivity. }
    unfold l in Hlx. cbn [length] in Hlx.
    destruct Ht as [T1 T2]. split; [unfold map2; rewrite map_length, combine_length, map_length; lia|].
    unfold map2. rewrite (map_nth (fun p => xadd A (fst p) (snd p)) _ (XNan, XNan)).
    rewrite combine_nth_min by (rewrite ?map_length; lia). cbn [fst snd]. rewrite T2. reflexivity. }
  set (lw := map2 (xadd A) (x_trapezium A logx) (map (fun z => XNum (fval z)) (logl r))) in *.
  destruct Hlw as [Hw1 Hw2].
  assert (Hnan : xmax lw = XNan). { apply xmax_nan. rewrite <- Hw2. apply nth_In. lia. }
  unfold x_rel. rewrite Hnan. split.
  - intros Hz. apply (f_equal (@length xval)) in Hz. rewrite map_length in Hz. cbn in Hz. lia.
  - intros v Hv. apply in_map_iff in Hv as (x & <- & _). destruct x; reflexivity.
Qed.
Print Assumptions C100_zero_draw.

(** Exact weights are positive (C31).  Rounded ones may be 0 although they are
    not small: the steps between log-volumes are lost where they are below the
    resolution.  Here everything is rounded to integers; with floats it happens
    where 1/n is less than the distance to the next float after |log X|. *)
Lemma down_one : forall x z, IZR z <= x < IZR z + 1 -> down 1 x = IZR z.
Proof.
  intros x z H. unfold down. rewrite Rmult_1_r. replace (Int_part x) with z; [lra|].
  apply Z.le_antisymm; [apply Int_part_le; lra|]. apply Z.lt_succ_r. apply lt_IZR. unfold Z.succ. rewrite plus_IZR.
  destruct (base_Int_part x). lra.
Qed.
Theorem C100_positive_refuted : exists A w,
    sound A /\ (forall l, In l (logl lost_run) -> rnd A (fval l) = fval l) /\
    x_w_rel A lost_run None = Ok w /\ nth 1 w XNan = XNum 0 /\
    exists w', get_w_rel lost_run None = Ok w' /\ 0 < nth 1 w' 0.
Proof.
  exists (grid 1). set (A := grid 1). assert (HA : sound A) by apply (grid_sound 1 ltac:(lia)).
  assert (Hz : fval 0 = 0) by (unfold fval; lra).
  assert (Hrep : forall l, In l (logl lost_run) -> rnd A (fval l) = fval l).
  { intros l [<-|[<-|[<-|[]]]]; rewrite Hz; apply (s_0 A HA). }
  assert (Hx : x_logx A (nlive_array lost_run) None = Ok [XNum 0; XNum 0; XNum 0]).
  { cbn [nlive_array lost_run x_logx]. replace (0 <? min_list [4; 4; 4])%Z with true by reflexivity. cbn [assertb rbind map].
    assert (H4 : rnd A 4 = 4) by (apply (down_one 4 4); lra).
    assert (Hs : xmul A (XNum (-1)) (xdiv A (XNum 1) (XNum (rnd A 4))) = XNum 0).
    { rewrite H4. cbn [xdiv]. destruct (Req_EM_T 4 0); [lra|]. cbn [xmul].
      replace (rnd A (1 / 4)) with 0 by (symmetry; apply (down_one (1 / 4) 0); lra).
      f_equal. replace (-1 * 0) with 0 by lra. apply (s_0 A HA). }
    rewrite Hs. cbn [xcumsum xcumsum_from xadd]. replace (0 + 0) with 0 by lra. rewrite !(s_0 A HA).
    replace (0 + 0) with 0 by lra. rewrite !(s_0 A HA). auto. }
  clearbody A. destruct (x_logw A lost_run None) as [logw|e] eqn:E.
  2: { unfold x_logw in E. rewrite Hx in E. discriminate. }
  exists (x_rel A logw). split; auto. split; auto. split; [unfold x_w_rel; rewrite E; auto|].
  destruct (logw_shape A HA lost_run None logw I Hrep E) as (H1 & H2 & _).
  destruct (xmax_sound logw H1 H2) as (m & Em & _). split.
  - destruct (logw_inv A lost_run None logw E) as (lx & Hlx & _ & [[Hc _]|[_ Hc]]); [discriminate|].
    assert (lx = [XNum 0; XNum 0; XNum 0]) by congruence. subst lx.
    assert (Hn : nth 1 logw XNan = XNeg).
    { rewrite Hc. cbn [logl lost_run map]. set (v := XNum (fval 0)). cbn [x_trapezium map2 map combine app nth fst snd length].
      replace (x_log_subtract A (XNum 0) (XNum 0)) with XNeg.
      - cbn [xlog]. destruct (Rlt_dec 0 2); [reflexivity|lra].
      - unfold x_log_subtract, xsub. cbn [xneg xadd xexp]. replace (0 + - 0) with 0 by lra.
        rewrite (s_0 A HA), (s_exp_0 A HA). replace (1 + - (1)) with 0 by lra. rewrite (s_0 A HA). cbn [xlog].
        destruct (Rlt_dec 0 0); [lra|]. destruct (Req_EM_T 0 0); [reflexivity|congruence]. }
    unfold x_rel. rewrite Em. change XNan with (xexp A (xsub A XNan (XNum m))) at 1.
    rewrite (map_nth (fun x => xexp A (xsub A x (XNum m)))). rewrite Hn. reflexivity.
  - destruct (get_w_rel lost_run None) as [w'|e] eqn:E'.
    2: { exfalso. clear - E'. unfold get_w_rel in E'. destruct lost_ok as [lw Hlw]. rewrite Hlw in E'. discriminate. }
    exists w'. split; auto. unfold get_w_rel in E'. destruct (get_logw lost_run None) as [lw|e] eqn:E2; [|discriminate].
    cbn [rbind] in E'. injection E' as <-. unfold rel.
    assert (L : length lw = 3%nat) by (pose proof (C100_errors A lost_run None) as HH; rewrite E2, E in HH; rewrite <- HH;
      apply (logw_sound A HA lost_run None logw I Hrep E)).
    rewrite (nth_indep _ 0 (exp (0 - rmax lw))) by (rewrite map_length; lia).
    rewrite (map_nth (fun x => exp (x - rmax lw))). apply exp_pos.
Qed.
Print Assumptions C100_positive_refuted.

(** The hypotheses are met by two quite different arithmetics, and the run above
    gives weights in both of them. *)
Example C100_hypotheses : sound exact /\ sound (grid (IZR (2 ^ 52))) /\
    exists w, x_w_rel (grid (IZR (2 ^ 52))) lost_run None = Ok w.
Proof.
  split; [apply exact_sound|]. split.
  - apply grid_sound. lia.
  - pose proof (C100_errors (grid (IZR (2 ^ 52))) lost_run None) as H. unfold x_w_rel. destruct lost_ok as [lw Hlw]. rewrite Hlw in H.
    destruct (x_logw (grid (IZR (2 ^ 52))) lost_run None) as [lx|e]; [|contradiction]. eexists. reflexivity.
Qed.
Example C100_zero_hypotheses : length [/ 2; 0; / 2; / 2] = 4%nat /\ (1 + 2 < 4)%nat /\ nth 1 [/ 2; 0; / 2; / 2] 1 = 0 /\
    (forall u, In u [/ 2; 0; / 2; / 2] -> 0 <= u < 1).
Proof. repeat split; auto; cbn in H; destruct H as [<-|[<-|[<-|[<-|[]]]]]; lra. Qed.
