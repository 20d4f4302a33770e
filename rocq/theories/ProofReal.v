(** Lemmas on sums, weights and prior volumes. *)
From Coq Require Import Lra.
From Verif Require Import Base ModelRun ModelReal ProofBase SpecReal.
Local Open Scope R_scope.

Lemma funit_pos : 0 < funit.
Proof. unfold funit. apply Rinv_0_lt_compat, pow_lt. lra. Qed.
Lemma fval_lt : forall x y, fval x < fval y <-> (x < y)%Z.
Proof.
  intros x y. unfold fval. pose proof funit_pos. split; intros H1.
  - apply lt_IZR. apply Rmult_lt_reg_r with funit; auto.
  - apply Rmult_lt_compat_r; auto. apply IZR_lt; auto.
Qed.
Lemma fval_le : forall x y, fval x <= fval y <-> (x <= y)%Z.
Proof.
  intros x y. pose proof (fval_lt y x). split; intros H1.
  - apply Z.nlt_ge. intros H2. apply H in H2. lra.
  - apply Rnot_lt_le. intros H2. apply H in H2. lia.
Qed.
Lemma fval_inj : forall x y, fval x = fval y -> x = y.
Proof.
  intros x y H. assert (x <= y)%Z by (apply fval_le; lra). assert (y <= x)%Z by (apply fval_le; lra). lia.
Qed.
Lemma fval_add : forall x y, fval (x + y) = fval x + fval y.
Proof. intros. unfold fval. rewrite plus_IZR. lra. Qed.

(** ** Sums *)

Lemma rsum_sumR : forall l, rsum l = sumR l.
Proof. induction l as [|x t IH]; [reflexivity|]. unfold rsum in *. cbn [fold_right sumR]. rewrite IH. reflexivity. Qed.
Lemma rsum_cons : forall x l, rsum (x :: l) = x + rsum l.
Proof. reflexivity. Qed.
Lemma rsum_app : forall a b, rsum (a ++ b) = rsum a + rsum b.
Proof. induction a; intros; cbn [app]; rewrite ?rsum_cons, ?IHa; unfold rsum at 2; cbn; try lra. unfold rsum. lra. Qed.
Lemma rsum_perm : forall a b, Permutation a b -> rsum a = rsum b.
Proof. induction 1; rewrite ?rsum_cons; auto; lra. Qed.
Lemma rsum_scale : forall A (f : A -> R) c l, rsum (map (fun x => c * f x) l) = c * rsum (map f l).
Proof. induction l; cbn [map]; rewrite ?rsum_cons, ?IHl; [unfold rsum; cbn|]; lra. Qed.
Lemma rsum_div : forall A (f : A -> R) c l, rsum (map (fun x => f x / c) l) = rsum (map f l) / c.
Proof.
  intros. rewrite (map_ext _ (fun x => / c * f x)) by (intros; unfold Rdiv; lra).
  rewrite rsum_scale. unfold Rdiv. lra.
Qed.
Lemma rsum_plus : forall A (f g : A -> R) l,
    rsum (map (fun x => f x + g x) l) = rsum (map f l) + rsum (map g l).
Proof. induction l; cbn [map]; rewrite ?rsum_cons, ?IHl; [unfold rsum; cbn|]; lra. Qed.
Lemma rsum_const : forall A (c : R) (l : list A), rsum (map (fun _ => c) l) = INR (length l) * c.
Proof.
  induction l; cbn [map length]; [unfold rsum; cbn; lra|].
  rewrite rsum_cons, IHl, S_INR. lra.
Qed.
Lemma rsum_le : forall A (f g : A -> R) l, (forall x, In x l -> f x <= g x) ->
    rsum (map f l) <= rsum (map g l).
Proof.
  induction l; intros H; cbn [map]; [unfold rsum; lra|]. rewrite !rsum_cons.
  apply Rplus_le_compat; [apply H; left; auto|apply IHl; intros; apply H; right; auto].
Qed.
Lemma rsum_nonneg : forall l, (forall x, In x l -> 0 <= x) -> 0 <= rsum l.
Proof.
  induction l; intros H; [unfold rsum; cbn; lra|]. rewrite rsum_cons.
  apply Rplus_le_le_0_compat; [apply H; left; auto|apply IHl; intros; apply H; right; auto].
Qed.
Lemma rsum_pos : forall l, l <> [] -> (forall x, In x l -> 0 < x) -> 0 < rsum l.
Proof.
  intros [|x t] Hn H; [congruence|]. rewrite rsum_cons.
  pose proof (H x (or_introl eq_refl)).
  assert (0 <= rsum t); [|lra]. apply rsum_nonneg. intros. apply Rlt_le, H. right; auto.
Qed.
Lemma rsum_ext_in : forall A (f g : A -> R) l, (forall x, In x l -> f x = g x) ->
    rsum (map f l) = rsum (map g l).
Proof. intros. f_equal. apply map_ext_in; auto. Qed.

(** ** map2, cumsum, max *)

Lemma map2_length : forall A B C (f : A -> B -> C) a b, length (map2 f a b) = min (length a) (length b).
Proof. intros. unfold map2. rewrite map_length, combine_length. auto. Qed.
Lemma nth_map2 : forall A B C (f : A -> B -> C) a b i da db dc,
    (i < length a)%nat -> (i < length b)%nat -> nth i (map2 f a b) dc = f (nth i a da) (nth i b db).
Proof.
  intros A B C f a. induction a as [|x a IH]; intros [|y b] i da db dc Ha Hb; cbn in *; try lia.
  destruct i; auto. apply IH; lia.
Qed.
Lemma cumsum_from_length : forall l s, length (cumsum_from s l) = length l.
Proof. induction l; intros; cbn; auto. Qed.
Lemma cumsum_length : forall l, length (cumsum l) = length l.
Proof. intros. apply cumsum_from_length. Qed.
Lemma nth_cumsum_from : forall l s i d, (i < length l)%nat ->
    nth i (cumsum_from s l) d = s + rsum (firstn (S i) l).
Proof.
  induction l as [|x t IH]; intros s i d Hi; cbn [length] in Hi; [lia|].
  destruct i as [|i]; cbn [cumsum_from nth].
  - cbn [firstn]. rewrite rsum_cons. unfold rsum. cbn. lra.
  - rewrite IH by lia. change (firstn (S (S i)) (x :: t)) with (x :: firstn (S i) t).
    rewrite rsum_cons. lra.
Qed.
Lemma nth_cumsum : forall l i d, (i < length l)%nat -> nth i (cumsum l) d = rsum (firstn (S i) l).
Proof. intros. unfold cumsum. rewrite nth_cumsum_from by auto. lra. Qed.

Lemma rsum_firstn_S : forall l i, (i < length l)%nat ->
    rsum (firstn (S i) l) = rsum (firstn i l) + nth i l 0.
Proof.
  induction l as [|x t IH]; intros i Hi; cbn [length] in Hi; [lia|].
  destruct i as [|i].
  - cbn [firstn nth]. rewrite rsum_cons. unfold rsum. cbn. lra.
  - change (firstn (S (S i)) (x :: t)) with (x :: firstn (S i) t).
    change (firstn (S i) (x :: t)) with (x :: firstn i t). rewrite !rsum_cons, IH by lia.
    cbn [nth]. lra.
Qed.

Lemma nth_all : forall (P : R -> Prop) l i, (forall x, In x l -> P x) -> (i < length l)%nat -> P (nth i l 0).
Proof. intros P l i H Hi. apply H, nth_In. auto. Qed.

(** Strictly monotone partial sums. *)
Lemma cumsum_decreasing : forall l, (forall x, In x l -> x < 0) ->
    forall i j, (i < j < length l)%nat -> nth j (cumsum l) 0 < nth i (cumsum l) 0.
Proof.
  intros l H i j Hij. rewrite !nth_cumsum by lia.
  assert (Hs : forall k, (S i + k < length l)%nat ->
             rsum (firstn (S (S i + k)) l) < rsum (firstn (S i) l)).
  { induction k as [|k IH]; intros Hk.
    - rewrite Nat.add_0_r, (rsum_firstn_S l (S i)) by lia.
      pose proof (nth_all (fun x => x < 0) l (S i) H ltac:(lia)). lra.
    - rewrite Nat.add_succ_r, (rsum_firstn_S l (S (S i + k))) by lia.
      pose proof (nth_all (fun x => x < 0) l (S (S i + k)) H ltac:(lia)).
      specialize (IH ltac:(lia)). lra. }
  replace j with (S i + (j - S i))%nat by lia. apply Hs. lia.
Qed.
Lemma cumsum_negative : forall l, (forall x, In x l -> x < 0) ->
    forall x, In x (cumsum l) -> x < 0.
Proof.
  intros l H x Hx. destruct (In_nth _ _ 0 Hx) as (i & Hi & <-). rewrite cumsum_length in Hi.
  destruct i as [|i].
  - rewrite nth_cumsum, rsum_firstn_S by auto. cbn [firstn]. unfold rsum. cbn [fold_right].
    pose proof (nth_all (fun x => x < 0) l 0 H ltac:(lia)). lra.
  - assert (nth (S i) (cumsum l) 0 < nth 0 (cumsum l) 0) by (apply cumsum_decreasing; auto; lia).
    rewrite (nth_cumsum l 0), rsum_firstn_S in H0 by lia. cbn [firstn] in H0.
    unfold rsum in H0 at 1. cbn [fold_right] in H0.
    pose proof (nth_all (fun x => x < 0) l 0 H ltac:(lia)). lra.
Qed.

Lemma rmax_spec : forall l, l <> [] -> In (rmax l) l /\ forall x, In x l -> x <= rmax l.
Proof.
  intros [|x t] Hn; [congruence|]. clear Hn. cbn [rmax]. induction t as [|y t [IH1 IH2]]; cbn [fold_right].
  - split; [left; auto|]. intros z [<-|[]]. lra.
  - split.
    + unfold Rmax at 1. destruct (Rle_dec y (fold_right Rmax x t)) as [Hle|Hgt].
      * destruct IH1 as [H|H]; [left; exact H|right; right; exact H].
      * right; left; auto.
    + intros z [Hz|[Hz|Hz]].
      * specialize (IH2 z (or_introl Hz)). pose proof (Rmax_r y (fold_right Rmax x t)). lra.
      * subst. apply Rmax_l.
      * specialize (IH2 z (or_intror Hz)). pose proof (Rmax_r y (fold_right Rmax x t)). lra.
Qed.
Lemma rmax_unique : forall l m, In m l -> (forall x, In x l -> x <= m) -> rmax l = m.
Proof.
  intros l m H1 H2. assert (l <> []) by (intros ->; destruct H1).
  destruct (rmax_spec l H) as [H3 H4]. apply Rle_antisym; auto.
Qed.

(** ** logsumexp and log_subtract *)

Lemma exp_lse : forall l, l <> [] -> exp (lse l) = rsum (map exp l).
Proof.
  intros l Hl. unfold lse. apply exp_ln. apply rsum_pos.
  - destruct l; [congruence|discriminate].
  - intros x Hx. apply in_map_iff in Hx as (y & <- & _). apply exp_pos.
Qed.
Lemma exp_lse2 : forall a b, exp (lse [a; b] - ln 2) = (exp a + exp b) / 2.
Proof.
  intros a b. unfold Rminus. rewrite exp_plus, exp_lse by discriminate. rewrite exp_Ropp, exp_ln by lra.
  cbn [map rsum fold_right]. unfold rsum. cbn. lra.
Qed.
Lemma exp_log_subtract : forall a b, b < a -> exp (log_subtract a b) = exp a - exp b.
Proof.
  intros a b H. unfold log_subtract. rewrite exp_plus, exp_ln.
  - unfold Rminus. rewrite exp_plus, exp_Ropp. pose proof (exp_pos a). field. lra.
  - assert (exp (b - a) < exp 0) by (apply exp_increasing; lra). rewrite exp_0 in H0. lra.
Qed.

(** ** Prior volumes *)

Lemma min_list_pos : forall l, l <> [] -> (0 <? min_list l)%Z = true <-> (forall n, In n l -> (0 < n)%Z).
Proof.
  intros l Hl. destruct (min_list_spec l Hl) as [H1 H2]. rewrite Z.ltb_lt. split.
  - intros H n Hn. specialize (H2 n Hn). lia.
  - intros H. apply H; auto.
Qed.

Definition logx_steps (nlive : list Z) (sim : option (list R)) : list R :=
  match sim with
  | Some us => map2 (fun u n => ln u / IZR n) us nlive
  | None => map (fun n => -1 * / IZR n) nlive
  end.
Lemma get_logx_ok : forall nlive sim logx, get_logx nlive sim = Ok logx ->
    nlive <> [] /\ (forall n, In n nlive -> (0 < n)%Z) /\ logx = cumsum (logx_steps nlive sim).
Proof.
  intros nlive sim logx H. unfold get_logx in H. destruct nlive as [|n0 t] eqn:Hn; [discriminate|].
  rewrite <- Hn in *. split; [rewrite Hn; discriminate|].
  destruct (0 <? min_list nlive)%Z eqn:Hm; cbn [assertb rbind] in H; [|discriminate].
  split; [apply min_list_pos; auto; rewrite Hn; discriminate|]. injection H as <-. auto.
Qed.
Lemma get_logx_run : forall nlive sim, nlive <> [] -> (forall n, In n nlive -> (0 < n)%Z) ->
    get_logx nlive sim = Ok (cumsum (logx_steps nlive sim)).
Proof.
  intros nlive sim Hn Hp. unfold get_logx. destruct nlive as [|n0 t] eqn:He; [congruence|].
  rewrite (proj2 (min_list_pos (n0 :: t) Hn) Hp). auto.
Qed.
Lemma logx_steps_length : forall nlive sim, draws_ok sim (length nlive) ->
    length (logx_steps nlive sim) = length nlive.
Proof.
  intros nlive [us|] H; cbn [logx_steps].
  - rewrite map2_length. destruct H as [-> _]. apply Nat.min_id.
  - apply map_length.
Qed.
Lemma logx_steps_neg : forall nlive sim, draws_ok sim (length nlive) ->
    (forall n, In n nlive -> (0 < n)%Z) -> forall x, In x (logx_steps nlive sim) -> x < 0.
Proof.
  intros nlive sim Hd Hp x Hx. destruct sim as [us|]; cbn [logx_steps] in Hx.
  - unfold map2 in Hx. apply in_map_iff in Hx as ([u n] & <- & Hin). cbn [fst snd].
    destruct Hd as [_ Hd]. pose proof (Hd u (in_combine_l _ _ _ _ Hin)).
    pose proof (IZR_lt _ _ (Hp n (in_combine_r _ _ _ _ Hin))).
    assert (ln u < 0) by (rewrite <- ln_1; apply ln_increasing; lra).
    assert (0 < / IZR n) by (apply Rinv_0_lt_compat; lra). unfold Rdiv. nra.
  - apply in_map_iff in Hx as (n & <- & Hin). pose proof (IZR_lt _ _ (Hp n Hin)).
    assert (0 < / IZR n) by (apply Rinv_0_lt_compat; lra). lra.
Qed.

Lemma logx_facts : forall nlive sim logx, get_logx nlive sim = Ok logx -> draws_ok sim (length nlive) ->
    length logx = length nlive /\ (forall x, In x logx -> x < 0) /\
    (forall i j, (i < j < length nlive)%nat -> nth j logx 0 < nth i logx 0).
Proof.
  intros nlive sim logx H Hd. apply get_logx_ok in H as (H1 & H2 & ->).
  rewrite cumsum_length, logx_steps_length by auto. split; auto. split.
  - apply cumsum_negative, logx_steps_neg; auto.
  - intros i j Hij. apply cumsum_decreasing.
    + apply logx_steps_neg; auto.
    + rewrite logx_steps_length; auto.
Qed.

(** ** The trapezium rule *)

(** Weights in terms of prior volumes. *)
Definition volumes (X : list R) : list R :=
  match X with
  | X0 :: X1 :: rest =>
      (1 - (X0 + X1) / 2) :: map2 (fun a b => (a - b) / 2) X rest
      ++ [(nth (length X - 2) X 0 + nth (length X - 1) X 0) / 2]
  | _ => []
  end.

Lemma mid_volumes : forall rest l,
    (forall i, (i < length rest)%nat -> (i < length l)%nat /\ nth i rest 0 < nth i l 0) ->
    map exp (map (fun d => d - ln 2) (map2 log_subtract l rest)) =
    map2 (fun a b => (a - b) / 2) (map exp l) (map exp rest).
Proof.
  induction rest as [|y rest IH]; intros l H.
  - unfold map2. destruct l; reflexivity.
  - destruct l as [|x l]; [destruct (H 0%nat ltac:(cbn; lia)); cbn in *; lia|].
    change (map2 log_subtract (x :: l) (y :: rest)) with (log_subtract x y :: map2 log_subtract l rest).
    cbn [map]. change (map2 (fun a b => (a - b) / 2) (exp x :: map exp l) (exp y :: map exp rest)) with
      ((exp x - exp y) / 2 :: map2 (fun a b => (a - b) / 2) (map exp l) (map exp rest)).
    f_equal.
    + unfold Rminus at 1. rewrite exp_plus, exp_log_subtract, exp_Ropp, exp_ln by (try lra; apply (H 0%nat); cbn; lia).
      lra.
    + apply IH. intros i Hi. destruct (H (S i) ltac:(cbn; lia)) as [H1 H2]. cbn in *. split; [lia|auto].
Qed.

Lemma nth_map_exp : forall l i, (i < length l)%nat -> nth i (map exp l) 0 = exp (nth i l 0).
Proof.
  intros l i H. rewrite (nth_indep _ 0 (exp 0)) by (rewrite map_length; auto). apply map_nth.
Qed.

Lemma exp_trapezium : forall logx, (2 <= length logx)%nat -> (forall x, In x logx -> x < 0) ->
    (forall i j, (i < j < length logx)%nat -> nth j logx 0 < nth i logx 0) ->
    map exp (trapezium logx) = volumes (map exp logx).
Proof.
  intros [|x0 [|x1 rest]] Hl Hneg Hdec; cbn [length] in Hl; try lia.
  set (logx := x0 :: x1 :: rest) in *.
  assert (HV : volumes (map exp logx) =
    (1 - (exp x0 + exp x1) / 2) :: map2 (fun a b => (a - b) / 2) (map exp logx) (map exp rest)
    ++ [(nth (length (map exp logx) - 2) (map exp logx) 0 + nth (length (map exp logx) - 1) (map exp logx) 0) / 2])
    by reflexivity.
  assert (HT : trapezium logx = log_subtract 0 (lse [x0; x1] - ln 2)
      :: map (fun d => d - ln 2) (map2 log_subtract logx rest)
      ++ [lse [nth (length logx - 2) logx 0; nth (length logx - 1) logx 0] - ln 2]) by reflexivity.
  rewrite HV, HT, map_cons, map_app, (map_cons _ (lse _ - _)). cbn [map].
  rewrite map_length. clear HV HT. f_equal; [|f_equal].
  - rewrite exp_log_subtract, exp_0, exp_lse2; auto.
    apply Rlt_le_trans with 0; [|lra].
    assert (exp (lse [x0; x1] - ln 2) < exp 0); [|apply exp_lt_inv; auto].
    rewrite exp_lse2, exp_0.
    assert (exp x0 < exp 0) by (apply exp_increasing, Hneg; left; auto).
    assert (exp x1 < exp 0) by (apply exp_increasing, Hneg; right; left; auto).
    rewrite exp_0 in *. lra.
  - apply mid_volumes. intros i Hi. unfold logx. cbn [length]. split; [lia|].
    change (nth i rest 0) with (nth (S (S i)) logx 0). apply Hdec. unfold logx. cbn [length]. lia.
  - f_equal. rewrite exp_lse2, !nth_map_exp; auto; unfold logx; cbn [length]; lia.
Qed.

Lemma volumes_length : forall X, (2 <= length X)%nat -> length (volumes X) = length X.
Proof.
  intros [|x0 [|x1 rest]] Hl; cbn [length] in Hl; try lia. unfold volumes. cbn [length].
  rewrite app_length, map2_length. cbn [length]. lia.
Qed.

Lemma rsum_mid : forall rest x0 x1,
    rsum (map2 (fun a b => (a - b) / 2) (x0 :: x1 :: rest) rest) =
    (x0 + x1) / 2 - (nth (length rest) (x0 :: x1 :: rest) 0 + nth (S (length rest)) (x0 :: x1 :: rest) 0) / 2.
Proof.
  induction rest as [|y rest IH]; intros x0 x1.
  - unfold map2, rsum. cbn. lra.
  - change (map2 (fun a b => (a - b) / 2) (x0 :: x1 :: y :: rest) (y :: rest)) with
      ((x0 - y) / 2 :: map2 (fun a b => (a - b) / 2) (x1 :: y :: rest) rest).
    rewrite rsum_cons, IH. cbn [length].
    change (nth (S (length rest)) (x0 :: x1 :: y :: rest) 0) with (nth (length rest) (x1 :: y :: rest) 0).
    change (nth (S (S (length rest))) (x0 :: x1 :: y :: rest) 0) with (nth (S (length rest)) (x1 :: y :: rest) 0).
    lra.
Qed.
Lemma rsum_volumes : forall X, (2 <= length X)%nat -> rsum (volumes X) = 1.
Proof.
  intros [|x0 [|x1 rest]] Hl; cbn [length] in Hl; try lia. unfold volumes.
  rewrite rsum_cons, rsum_app, rsum_mid. cbn [length].
  replace (S (S (length rest)) - 2)%nat with (length rest) by lia.
  replace (S (S (length rest)) - 1)%nat with (S (length rest)) by lia.
  rewrite rsum_cons. unfold rsum. cbn [fold_right]. lra.
Qed.

(** The weights, index by index. *)
Definition volume_at (X : list R) (i : nat) : R :=
  (if (i =? 0)%nat then 1 - (nth 0 X 0 + nth 1 X 0) / 2
   else if (S i =? length X)%nat then (nth (i - 1) X 0 + nth i X 0) / 2
   else (nth (i - 1) X 0 - nth (i + 1) X 0) / 2).
Lemma nth_volumes : forall X i, (2 <= length X)%nat -> (i < length X)%nat ->
    nth i (volumes X) 0 = volume_at X i.
Proof.
  intros [|x0 [|x1 rest]] i Hl Hi; cbn [length] in Hl; try lia.
  set (X := x0 :: x1 :: rest) in *. unfold volume_at.
  assert (HX : length X = S (S (length rest))) by reflexivity.
  unfold volumes, X at 1. fold X. destruct i as [|i]; [reflexivity|]. cbn [nth].
  change (S i =? 0)%nat with false. cbn match.
  assert (Hm : length (map2 (fun a b => (a - b) / 2) X rest) = length rest).
  { rewrite map2_length, HX. lia. }
  destruct (Nat.eqb_spec (S (S i)) (length X)) as [He|He].
  - rewrite app_nth2, Hm by lia. replace (i - length rest)%nat with 0%nat by lia. cbn [nth].
    replace (length X - 2)%nat with (S i - 1)%nat by lia.
    replace (length X - 1)%nat with (S i) by lia. auto.
  - rewrite app_nth1 by lia. rewrite (nth_map2 _ _ _ _ _ _ _ 0 0) by lia.
    replace (S i - 1)%nat with i by lia. replace (S i + 1)%nat with (S (S i)) by lia.
    unfold X. cbn [nth]. auto.
Qed.

Lemma volume_at_pos : forall logx i, (2 <= length logx)%nat -> (forall x, In x logx -> x < 0) ->
    (forall i j, (i < j < length logx)%nat -> nth j logx 0 < nth i logx 0) ->
    (i < length logx)%nat -> 0 < volume_at (map exp logx) i.
Proof.
  intros logx i Hl Hneg Hdec Hi. unfold volume_at. rewrite map_length.
  destruct (Nat.eqb_spec i 0) as [->|H0]; [|destruct (Nat.eqb_spec (S i) (length logx)) as [He|He]];
    rewrite !nth_map_exp by lia.
  - assert (exp (nth 0 logx 0) < exp 0) by (apply exp_increasing, Hneg, nth_In; lia).
    assert (exp (nth 1 logx 0) < exp 0) by (apply exp_increasing, Hneg, nth_In; lia).
    rewrite exp_0 in *. lra.
  - pose proof (exp_pos (nth (i - 1) logx 0)). pose proof (exp_pos (nth i logx 0)). lra.
  - assert (exp (nth (i + 1) logx 0) < exp (nth (i - 1) logx 0)); [|lra].
    apply exp_increasing, Hdec. lia.
Qed.

(** ** get_logw *)

Lemma nth_fval : forall l i, nth i (map fval l) 0 = fval (nth i l 0%Z).
Proof.
  intros l i. replace 0 with (fval 0) at 1 by (unfold fval; lra). apply map_nth.
Qed.

(** Share of the prior volume of each sample. *)
Definition share (r : run) (sim : option (list R)) (i : nat) : R :=
  if (length (logl r) =? 1)%nat then 1
  else volume_at (map exp (cumsum (logx_steps (nlive_array r) sim))) i.

Lemma get_logw_facts : forall r sim logw, get_logw r sim = Ok logw ->
    draws_ok sim (length (nlive_array r)) ->
    nlive_array r <> [] /\ (forall n, In n (nlive_array r) -> (0 < n)%Z) /\
    length (nlive_array r) = length (logl r) /\ length logw = length (logl r) /\
    (forall i, (i < length (logl r))%nat ->
       0 < share r sim i /\ exp (nth i logw 0) = share r sim i * exp (fval (nth i (logl r) 0%Z))) /\
    rsum (map (share r sim) (seq 0 (length (logl r)))) = 1.
Proof.
  intros r sim logw H Hd. unfold get_logw in H.
  destruct (get_logx (nlive_array r) sim) as [logx|] eqn:Hx; cbn [rbind] in H; [|discriminate].
  destruct (logx_facts _ _ _ Hx Hd) as (L1 & L2 & L3).
  apply get_logx_ok in Hx as (K1 & K2 & K3). split; auto. split; auto.
  rewrite map_length in H.
  destruct (Nat.eqb_spec (length logx) (length (logl r))) as [Hlen|]; [|discriminate].
  split; [lia|]. unfold share. rewrite <- K3.
  destruct (Nat.eqb_spec (length (logl r)) 1) as [H1|H1].
  - injection H as <-. rewrite map_length. split; auto. split.
    + intros i Hi. split; [lra|]. rewrite nth_fval. lra.
    + rewrite H1. cbn. unfold rsum. cbn. lra.
  - injection H as <-. assert (H2 : (2 <= length logx)%nat).
    { destruct (logl r); cbn in *; [destruct (nlive_array r); [congruence|cbn in *; lia]|lia]. }
    rewrite <- L1 in L3.
    pose proof (exp_trapezium logx H2 L2 L3) as Ht.
    assert (Hlt : length (trapezium logx) = length logx).
    { rewrite <- (map_length exp), Ht, volumes_length; rewrite map_length; auto. }
    split; [rewrite map2_length, map_length; lia|]. split.
    + intros i Hi. split; [apply volume_at_pos; auto; lia|].
      rewrite (nth_map2 _ _ _ _ _ _ _ 0 0) by (rewrite ?map_length; lia).
      rewrite exp_plus, nth_fval. f_equal. rewrite <- nth_map_exp by lia. rewrite Ht.
      apply nth_volumes; rewrite map_length; lia.
    + rewrite <- Hlen. rewrite <- (rsum_volumes (map exp logx)) by (rewrite map_length; auto).
      f_equal. apply nth_ext with 0 0.
      * rewrite map_length, seq_length, volumes_length, map_length; rewrite ?map_length; auto.
      * intros i Hi. rewrite map_length, seq_length in Hi.
        rewrite nth_volumes by (rewrite map_length; lia).
        rewrite (nth_indep _ 0 (volume_at (map exp logx) 0%nat)) by (rewrite map_length, seq_length; auto).
        rewrite map_nth, seq_nth by auto. auto.
Qed.

Lemma get_logw_run : forall r sim,
    nlive_array r <> [] -> (forall n, In n (nlive_array r) -> (0 < n)%Z) ->
    length (nlive_array r) = length (logl r) -> draws_ok sim (length (nlive_array r)) ->
    exists logw, get_logw r sim = Ok logw.
Proof.
  intros r sim H1 H2 H3 H4. unfold get_logw. rewrite get_logx_run by auto. cbn [rbind].
  rewrite cumsum_length, logx_steps_length, map_length, H3, Nat.eqb_refl by auto.
  destruct (length (logl r) =? 1)%nat; eauto.
Qed.
