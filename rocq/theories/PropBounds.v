(** C103: explicit bounds on rounding errors. *)
From Coq Require Import Lra.
From Verif Require Import Base ModelRun ModelReal ModelRound ProofBase SpecReal ProofReal ProofRound
     ProofLimit Ariths PropLimit ProofBounds.
Local Open Scope R_scope.

(** ** Theorems *)
(** The relative error of the i-th log-volume (counted from 0) is that of i + 2
    operations; the numbers of live points are floats. *)
Theorem C103_logx : forall u A nlive sim logx, 0 <= u -> relative u A -> draws_ok sim (length nlive) ->
    (forall n, In n nlive -> rnd A (IZR n) = IZR n) -> get_logx nlive sim = Ok logx ->
    exists ys, x_logx A nlive sim = Ok (map XNum ys) /\ length ys = length logx /\
      forall i, (i < length logx)%nat ->
        Rabs (nth i ys 0 - nth i logx 0) <= ((1 + u) ^ (i + 2) - 1) * Rabs (nth i logx 0).
Proof. intros u A nlive sim logx Hu HA Hd Hr H. exact (logx_off u A Hu HA nlive sim logx Hd Hr H). Qed.
Print Assumptions C103_logx.

Lemma pow_small : forall u k, 0 <= u -> INR k * u < 1 -> (1 + u) ^ k <= / (1 - INR k * u).
Proof.
  intros u k Hu. induction k as [|k IH]; intros Hk.
  - cbn [pow INR]. replace (1 - 0 * u) with 1 by lra. lra.
  - rewrite S_INR in *. assert (Hk0 : 0 <= INR k) by apply pos_INR. assert (Hk1 : INR k * u < 1) by lra.
    specialize (IH Hk1). cbn [pow]. set (v := 1 - INR k * u) in *.
    assert (Hv : 0 < v) by (unfold v; lra). assert (Hvu : 0 < v - u) by (unfold v; lra).
    replace (1 - (INR k + 1) * u) with (v - u) by (unfold v; lra).
    apply Rle_trans with ((1 + u) * / v); [apply Rmult_le_compat_l; lra|].
    apply (Rmult_le_reg_r (v * (v - u))); [apply Rmult_lt_0_compat; auto|].
    replace ((1 + u) * / v * (v * (v - u))) with ((1 + u) * (v - u)) by (field; lra).
    replace (/ (v - u) * (v * (v - u))) with v by (field; lra).
    assert (v <= 1) by (unfold v; assert (0 <= INR k * u) by (apply Rmult_le_pos; auto); lra). nra.
Qed.
(** In double precision, nine digits are right for a run of a million points. *)
Theorem C103_double : forall A nlive sim logx, relative (/ 2 ^ 53) A -> draws_ok sim (length nlive) ->
    (forall n, In n nlive -> rnd A (IZR n) = IZR n) -> get_logx nlive sim = Ok logx ->
    (Z.of_nat (length nlive) <= 1000000)%Z ->
    exists ys, x_logx A nlive sim = Ok (map XNum ys) /\ length ys = length logx /\
      forall i, (i < length logx)%nat ->
        Rabs (nth i ys 0 - nth i logx 0) <= Rabs (nth i logx 0) / 10 ^ 9.
Proof.
  intros A nlive sim logx HA Hd Hr H Hlen.
  assert (P : 0 < / 2 ^ 53) by (apply Rinv_0_lt_compat; apply pow_lt; lra).
  destruct (C103_logx (/ 2 ^ 53) A nlive sim logx ltac:(lra) HA Hd Hr H) as (ys & E & L & HY).
  exists ys. split; auto. split; auto. intros i Hi. eapply Rle_trans; [apply HY; auto|].
  destruct (logx_facts nlive sim logx H Hd) as (Hl & _ & _).
  assert (Hk : INR (i + 2) <= 1000001).
  { rewrite Hl in Hi. rewrite INR_IZR_INZ. apply IZR_le. lia. }
  assert (E53 : / 2 ^ 53 <= / 9007199254740992) by (apply Rinv_le_contravar; [lra|]; lra).
  assert (Hk0 : 0 <= INR (i + 2)) by apply pos_INR.
  assert (Hku : INR (i + 2) * / 2 ^ 53 <= 1000001 * / 9007199254740992) by (apply Rmult_le_compat; lra).
  pose proof (pow_small (/ 2 ^ 53) (i + 2) ltac:(lra) ltac:(lra)) as Hp.
  assert (Hq : / (1 - INR (i + 2) * / 2 ^ 53) <= / (1 - 1000001 * / 9007199254740992)).
  { apply Rinv_le_contravar; lra. }
  rewrite Rmult_comm. unfold Rdiv. apply Rmult_le_compat_l; [apply Rabs_pos|]. lra.
Qed.
Print Assumptions C103_double.

(** The relative error of a relative weight exp(-d) is that of exp with the
    rounded argument. *)
Theorem C103_weights : forall u A r sim lw M, 0 <= u < 1 -> relative u A ->
    x_logw A r sim = Ok (map XNum lw) -> In M lw -> (forall x, In x lw -> x <= M) ->
    exists ws, x_w_rel A r sim = Ok (map XNum ws) /\ length ws = length lw /\ (forall w, In w ws -> 0 < w) /\
      forall i, (i < length lw)%nat -> let d := M - nth i lw 0 in
        Rabs (nth i ws 0 - exp (- d)) <= ((1 + u) * exp (u * d) - 1) * exp (- d).
Proof.
  intros u A r sim lw M [Hu Hu1] HA Hw HM1 HM2. assert (Hne : lw <> []) by (intros ->; contradiction).
  exists (map (fun x => fexp A (rnd A (x - M))) lw). unfold x_w_rel. rewrite Hw. cbn [rbind]. unfold x_rel.
  rewrite xmax_numbers, (rmax_unique lw M) by auto.
  split; [rewrite !map_map; reflexivity|]. split; [apply map_length|].
  split.
  - intros w Hin. apply in_map_iff in Hin as (x & <- & Hx). specialize (HM2 x Hx).
    destruct (weight_off u A Hu HA (x - M) ltac:(lra)) as [_ Hb]. destruct (Hb Hu1) as [Hb1 _].
    eapply Rlt_le_trans; [|exact Hb1]. apply Rmult_lt_0_compat; [apply Rmult_lt_0_compat; [lra|]|]; apply exp_pos.
  - intros i Hi. set (d := M - nth i lw 0). rewrite (map_nth_in _ _ _ 0 0) by auto.
    assert (Hd : nth i lw 0 - M <= 0) by (specialize (HM2 _ (nth_In _ 0 Hi)); lra).
    destruct (weight_off u A Hu HA (nth i lw 0 - M) Hd) as [Hb _].
    replace (nth i lw 0 - M) with (- d) in * by (unfold d; lra). rewrite Ropp_involutive in Hb. auto.
Qed.
Print Assumptions C103_weights.

(** logZ of log-weights which are at most D below the largest one. *)
Theorem C103_logz : forall u A r sim lw M D, 0 <= u < 1 -> relative u A ->
    x_logw A r sim = Ok (map XNum lw) -> In M lw -> (forall x, In x lw -> M - D <= x <= M) ->
    let exact_logz := ln (sumR (map exp lw)) in
    let e := u * D + INR (length lw) * - ln (1 - u) in
    exists z, x_logz A r sim = Ok (XNum z) /\
      Rabs (z - exact_logz) <= (1 + u) * ((1 + u) * e + u * (exact_logz - M)) + u * Rabs exact_logz.
Proof.
  intros u A r sim lw M D [Hu Hu1] HA Hw HM1 HM2 S0 e. assert (Hne : lw <> []) by (intros ->; contradiction).
  assert (EM : rmax lw = M) by (apply rmax_unique; auto; intros x Hx; apply HM2; auto).
  assert (E0 : S0 = lse lw) by (unfold S0, lse; f_equal; symmetry; apply rsum_sumR).
  destruct (lse_off u A Hu HA lw D Hu1 Hne) as (z & Ez & Hz).
  - intros x Hx. rewrite EM. specialize (HM2 x Hx). lra.
  - exists z. unfold x_logz. rewrite Hw. cbn [rbind]. rewrite Ez. split; auto. rewrite E0, <- EM. exact Hz.
Qed.
Print Assumptions C103_logz.

(** The mean of a parameter, for the computed weights. *)
Theorem C103_mean : forall u A r k sim lw ws c, 0 <= u < 1 -> relative u A ->
    x_logw A r sim = Ok (map XNum lw) -> lw <> [] ->
    x_w_rel A r sim = Ok (map XNum ws) -> column (theta r) k = Ok c -> length c = length ws ->
    let mean_of f := sumR (map (fun p => fst p * f (snd p)) (combine ws c)) / sumR ws in
    exists m, x_param_mean A k r sim = Ok (XNum m) /\
      Rabs (m - mean_of (fun x => x)) <=
        ((1 + u) ^ (length ws + 1) / (1 - u) ^ (length ws - 1) - 1) * mean_of Rabs.
Proof.
  intros u A r k sim lw ws c Hu HA Hw Hne Hws Hc Hl mean_of.
  destruct (rmax_spec lw Hne) as [HM1 HM2].
  destruct (C103_weights u A r sim lw (rmax lw) Hu HA Hw HM1 HM2) as (ws' & Ew & Lw & Pw & _).
  rewrite Hws in Ew. injection Ew as Ew.
  assert (E : ws = ws').
  { clear - Ew. revert ws' Ew. induction ws as [|a ws IH]; intros [|b ws'] E; try discriminate; auto.
    injection E as -> E. f_equal. auto. }
  subst ws'.
  assert (Hne2 : ws <> []) by (intros ->; destruct lw; [congruence|discriminate]).
  destruct (mean_off u A (proj1 Hu) HA ws c (proj2 Hu) Hne2 Pw Hl) as (m & Em & Hm). exists m.
  unfold x_param_mean, x_column. unfold x_w_rel in Hws. rewrite Hw, Hc in *. cbn [rbind] in *.
  injection Hws as Hws. rewrite Hws, Em. split; [reflexivity|exact Hm].
Qed.
Print Assumptions C103_mean.

(** ** Floating point numbers of p bits *)
(** [x] cut to [p] bits after its first one, downwards. *)
Definition exponent (x : R) : Z := Int_part (ln (Rabs x) / ln 2).
Definition cut (p : Z) (x : R) : R :=
  if Req_EM_T x 0 then 0 else down (exp (IZR (p - exponent x) * ln 2)) x.
Definition binary (p : Z) : arith :=
  mkArith (cut p) (fun x => cut p (exp x)) (fun x => cut p (ln x)) (right_sum (cut p)).

Lemma ln2_pos : 0 < ln 2.
Proof. rewrite <- ln_1. apply ln_increasing; lra. Qed.
Lemma exponent_spec : forall x, x <> 0 ->
    exp (IZR (exponent x) * ln 2) <= Rabs x < exp (IZR (exponent x + 1) * ln 2).
Proof.
  intros x Hx. pose proof ln2_pos as H2. assert (Ha : 0 < Rabs x) by (apply Rabs_pos_lt; auto).
  unfold exponent. destruct (base_Int_part (ln (Rabs x) / ln 2)) as [B1 B2].
  set (e := Int_part (ln (Rabs x) / ln 2)) in *. set (q := ln (Rabs x) / ln 2) in *.
  assert (Eq : ln (Rabs x) = q * ln 2) by (unfold q; field; lra).
  rewrite <- (exp_ln (Rabs x)) by auto. rewrite Eq. split.
  - apply exp_le, Rmult_le_compat_r; lra.
  - apply exp_increasing. rewrite plus_IZR. apply Rmult_lt_compat_r; lra.
Qed.
Lemma cut_error : forall p x, Rabs (cut p x - x) <= exp (- IZR p * ln 2) * Rabs x.
Proof.
  intros p x. unfold cut. destruct (Req_EM_T x 0) as [->|Hx].
  - replace (0 - 0) with 0 by lra. rewrite Rabs_R0. lra.
  - eapply Rle_trans; [apply down_error, exp_pos|]. rewrite <- exp_Ropp.
    replace (- (IZR (p - exponent x) * ln 2)) with (- IZR p * ln 2 + IZR (exponent x) * ln 2) by (rewrite minus_IZR; lra).
    rewrite exp_plus. apply Rmult_le_compat_l; [left; apply exp_pos|]. apply exponent_spec; auto.
Qed.
Lemma exp_pow2 : forall k, exp (IZR (Z.of_nat k) * ln 2) = IZR (2 ^ Z.of_nat k).
Proof.
  induction k as [|k IH]; [cbn; rewrite Rmult_0_l; apply exp_0|].
  rewrite Nat2Z.inj_succ, Z.pow_succ_r, mult_IZR, <- IH by lia. unfold Z.succ. rewrite plus_IZR.
  replace ((IZR (Z.of_nat k) + 1) * ln 2) with (ln 2 + IZR (Z.of_nat k) * ln 2) by lra.
  rewrite exp_plus, exp_ln by lra. reflexivity.
Qed.
(** Integers of at most p bits are kept. *)
Lemma cut_integer : forall p n, (0 <= p)%Z -> (Z.abs n <= 2 ^ p)%Z -> cut p (IZR n) = IZR n.
Proof.
  intros p n Hp Hn. unfold cut. destruct (Req_EM_T (IZR n) 0) as [E|E]; [auto|].
  destruct (exponent_spec (IZR n) E) as [H1 _].
  assert (He : (exponent (IZR n) <= p)%Z).
  { destruct (Z_le_gt_dec (exponent (IZR n)) p) as [|Hg]; auto. exfalso.
    assert (H2 : exp (IZR p * ln 2) < exp (IZR (exponent (IZR n)) * ln 2)).
    { apply exp_increasing. apply Rmult_lt_compat_r; [apply ln2_pos|]. apply IZR_lt. lia. }
    rewrite <- (Z2Nat.id p) in H2 at 1 by lia. rewrite exp_pow2, Z2Nat.id in H2 by lia.
    rewrite <- abs_IZR in H1. apply IZR_le in Hn. lra. }
  apply (down_exact _ _ (n * 2 ^ (p - exponent (IZR n)))); [apply exp_pos|].
  rewrite mult_IZR. f_equal. rewrite <- (Z2Nat.id (p - exponent (IZR n))) by lia. apply exp_pow2.
Qed.
Theorem C103_binary : forall p, (0 <= p)%Z -> relative (/ IZR (2 ^ p)) (binary p) /\
    forall n, (Z.abs n <= 2 ^ p)%Z -> rnd (binary p) (IZR n) = IZR n.
Proof.
  intros p Hp. split; [|intros; apply cut_integer; auto].
  assert (E : / IZR (2 ^ p) = exp (- IZR p * ln 2)).
  { rewrite <- (Z2Nat.id p) by lia. rewrite <- exp_pow2, <- exp_Ropp. f_equal. lra. }
  rewrite E. constructor; cbn [binary rnd fexp flog fsum].
  - apply cut_error.
  - intros x. pose proof (cut_error p (exp x)) as H. rewrite (Rabs_pos_eq (exp x)) in H by (left; apply exp_pos). auto.
  - intros x _. apply cut_error.
  - reflexivity.
  - intros [|x l] Hne; [congruence|]. exists (chain x l). split; [rewrite chain_leaves; auto|].
    clear Hne. revert x. induction l as [|y t IH]; intros x; cbn [right_sum chain add_up]; auto.
    change (match t with [] => y | _ :: _ => cut p (y + right_sum (cut p) t) end)
      with (right_sum (cut p) (y :: t)). rewrite IH. reflexivity.
Qed.
Print Assumptions C103_binary.

(** ** Examples *)
Lemma relative_accurate : forall u A, 0 <= u <= 1 -> relative u A -> accurate u A.
Proof.
  intros u A Hu HA. constructor.
  - intros x. eapply Rle_trans; [apply (r_rnd u A HA)|]. apply Rmult_le_compat_l; lra.
  - intros x Hx. pose proof (r_rnd u A HA x) as H. rewrite (Rabs_pos_eq x) in H by auto. apply abs_le in H. nra.
  - intros x. eapply Rle_trans; [apply (r_exp u A HA)|]. apply Rmult_le_compat_l; lra.
  - intros x Hx. eapply Rle_trans; [apply (r_log u A HA); auto|]. apply Rmult_le_compat_l; lra.
  - apply (r_sum_nil u A HA).
  - apply (r_sum u A HA).
Qed.
(** The bounds apply to a run if there are enough bits. *)
Example C103_hypotheses : exists p lw ws, (10 <= p)%Z /\ relative (/ IZR (2 ^ p)) (binary p) /\
    (forall n, In n (nlive_array lost_run) -> rnd (binary p) (IZR n) = IZR n) /\
    0 <= / IZR (2 ^ p) < 1 /\ lw <> [] /\ x_logw (binary p) lost_run None = Ok (map XNum lw) /\
    x_w_rel (binary p) lost_run None = Ok (map XNum ws) /\ length ws = 3%nat /\
    exists c, column (theta lost_run) 0 = Ok c /\ length c = 3%nat.
Proof.
  destruct lost_ok as [logw Hlw]. destruct (C101_weights lost_run None logw I Hlw) as [Hn _].
  destruct (Hn 1 ltac:(lra)) as (u & Hu & HA).
  assert (Hp : exists p, (10 <= p)%Z /\ / IZR (2 ^ p) <= u).
  { destruct (archimed (/ u)) as [Ha _]. exists (Z.max 10 (up (/ u))). split; [lia|].
    set (k := up (/ u)) in *. assert (Hiu : 0 < / u) by (apply Rinv_0_lt_compat; auto).
    assert (Hk : (0 < k)%Z) by (apply lt_IZR; lra). rewrite <- (Rinv_inv u). apply Rinv_le_contravar; auto.
    assert (Hge : (k <= 2 ^ Z.max 10 k)%Z).
    { apply Z.le_trans with (2 ^ k)%Z; [apply Z.lt_le_incl, Z.pow_gt_lin_r; lia|]. apply Z.pow_le_mono_r; lia. }
    apply IZR_le in Hge. lra. }
  destruct Hp as (p & Hp & Hpu). destruct (C103_binary p ltac:(lia)) as [HR HI].
  assert (H2p : 1 < IZR (2 ^ p)).
  { apply IZR_lt. assert (2 ^ 1 <= 2 ^ p)%Z by (apply Z.pow_le_mono_r; lia). lia. }
  assert (Hu1 : 0 < / IZR (2 ^ p) < 1).
  { split; [apply Rinv_0_lt_compat; lra|]. rewrite <- Rinv_1. apply Rinv_1_lt_contravar; lra. }
  assert (HAc : accurate u (binary p)).
  { eapply accurate_weaken; [exact Hpu|]. apply relative_accurate; auto. lra. }
  destruct (HA _ HAc) as (lw & Elw & Llw & _).
  assert (HL : length logw = 3%nat).
  { unfold get_logw in Hlw. cbn [nlive_array lost_run get_logx] in Hlw.
    replace (0 <? min_list [4; 4; 4])%Z with true in Hlw by reflexivity.
    cbn [assertb rbind map cumsum cumsum_from length Nat.eqb logl] in Hlw. injection Hlw as <-. reflexivity. }
  assert (Hne : lw <> []) by (intros ->; cbn in Llw; lia).
  destruct (rmax_spec lw Hne) as [M1 M2].
  destruct (C103_weights (/ IZR (2 ^ p)) (binary p) lost_run None lw (rmax lw) ltac:(lra) HR Elw M1 M2) as (ws & Ews & Lws & _).
  exists p, lw, ws. split; auto. split; auto. split.
  { intros n Hn2. apply HI. assert (2 ^ 10 <= 2 ^ p)%Z by (apply Z.pow_le_mono_r; lia).
    cbn in Hn2. destruct Hn2 as [<-|[<-|[<-|[]]]]; lia. }
  split; [lra|]. split; auto. split; auto. split; auto. split; [lia|].
  unfold column. cbn [theta lost_run hd length]. eexists. split; [reflexivity|reflexivity].
Qed.
(** A run of double precision. *)
Example C103_double_hypotheses : relative (/ 2 ^ 53) (binary 53) /\ draws_ok None 3 /\
    (forall n, In n [400; 399; 398]%Z -> rnd (binary 53) (IZR n) = IZR n) /\
    exists logx, get_logx [400; 399; 398]%Z None = Ok logx.
Proof.
  destruct (C103_binary 53 ltac:(lia)) as [HR HI].
  split; [|split; [exact I|split; [|eexists; reflexivity]]].
  - replace (2 ^ 53) with (IZR (2 ^ 53)); auto. rewrite pow_IZR. reflexivity.
  - intros n Hn. apply HI. cbn in Hn. destruct Hn as [<-|[<-|[<-|[]]]]; cbn; lia.
Qed.
