(** C107: mean and variance of sums over the samples of bootstrap resamples. *)
From Coq Require Import Reals Lra.
From Verif Require Import Base ModelRun ModelBoot Envs Spec SpecRun SpecReal
     ProofBase ProofMonad ProofRun ProofBoot PropCombine PropBoot PropChance PropShrink.
Local Open Scope R_scope.

(** ** Sums over all sequences of draws *)
(** Score of a sequence of draws: one function for each of them. *)
Fixpoint score (fs : list (nat -> R)) (v : list nat) : R :=
  match fs, v with f :: fs', d :: v' => f d + score fs' v' | _, _ => 0 end.
Definition avg (k : nat) (f : nat -> R) : R := sumR (map f (seq 0 k)) / INR k.
Definition dev (k : nat) (f : nat -> R) : R := sumR (map (fun d => (f d - avg k f) ^ 2) (seq 0 k)) / INR k.
Fixpoint sum2 (m : nat -> (nat -> R) -> R) (ks : list nat) (fs : list (nat -> R)) : R :=
  match ks, fs with k :: ks', f :: fs' => m k f + sum2 m ks' fs' | _, _ => 0 end.
Lemma sumR_ext_in : forall A (f g : A -> R) l, (forall x, In x l -> f x = g x) -> sumR (map f l) = sumR (map g l).
Proof. intros A f g l H. f_equal. apply map_ext_in. auto. Qed.
Lemma sum_square : forall k f c, (0 < k)%nat ->
    sumR (map (fun d => (f d - c) ^ 2) (seq 0 k)) = INR k * (dev k f + (avg k f - c) ^ 2).
Proof.
  intros k f c Hk. assert (0 < INR k) by (apply lt_0_INR; auto).
  rewrite (sumR_ext_in _ _ (fun d => ((f d - avg k f) ^ 2 + (2 * (avg k f - c)) * (f d)) + (c ^ 2 - avg k f ^ 2))) by (intros; ring).
  rewrite !sumR_plus, sumR_mult, sumR_const, seq_length. unfold dev.
  assert (Ha : sumR (map f (seq 0 k)) = INR k * avg k f) by (unfold avg; field; lra). rewrite Ha. field. lra.
Qed.
Lemma all_draws_sum : forall ks fs c, length fs = length ks -> (forall k, In k ks -> (0 < k)%nat) ->
    sumR (map (score fs) (all_draws ks)) = INR (length (all_draws ks)) * sum2 avg ks fs /\
    sumR (map (fun v => (score fs v - c) ^ 2) (all_draws ks)) =
    INR (length (all_draws ks)) * (sum2 dev ks fs + (sum2 avg ks fs - c) ^ 2).
Proof.
  induction ks as [|k ks IH]; intros fs c Hl Hk.
  - destruct fs; [|discriminate]. cbn. lra.
  - destruct fs as [|f fs]; [discriminate|]. injection Hl as Hl.
    assert (Hk0 : (0 < k)%nat) by (apply Hk; left; auto). assert (HK : 0 < INR k) by (apply lt_0_INR; auto).
    assert (Hks : forall x, In x ks -> (0 < x)%nat) by (intros; apply Hk; right; auto).
    cbn [all_draws sum2]. set (L := all_draws ks) in *.
    assert (Hlen : length (flat_map (fun d => map (cons d) L) (seq 0 k)) = (k * length L)%nat).
    { generalize 0%nat. clear. induction k as [|k IHk]; intros s; auto. cbn [seq flat_map]. rewrite app_length, map_length, IHk. lia. }
    rewrite Hlen, mult_INR.
    assert (Hfl : forall h : list nat -> R, sumR (map h (flat_map (fun d => map (cons d) L) (seq 0 k))) =
                  sumR (map (fun d => sumR (map (fun v => h (d :: v)) L)) (seq 0 k))).
    { intros h. generalize 0%nat. clear. induction k as [|k IHk]; intros s; auto. cbn [seq flat_map map].
      rewrite map_app, sumR_app', IHk, map_map. reflexivity. }
    rewrite !Hfl. split.
    + rewrite (sumR_ext_in _ _ (fun d => INR (length L) * f d + INR (length L) * sum2 avg ks fs)).
      2:{ intros d _. cbn [score]. rewrite sumR_plus, sumR_const. destruct (IH fs 0 Hl Hks) as (E & _). rewrite E. ring. }
      rewrite sumR_plus, sumR_mult, sumR_const, seq_length. unfold avg at 2. field. lra.
    + rewrite (sumR_ext_in _ _ (fun d => INR (length L) * ((f d - (c - sum2 avg ks fs)) ^ 2) + INR (length L) * sum2 dev ks fs)).
      2:{ intros d _. cbn [score].
          rewrite (sumR_ext_in _ _ (fun v => (score fs v - (c - f d)) ^ 2)) by (intros; ring).
          destruct (IH fs (c - f d) Hl Hks) as (_ & E). rewrite E. ring. }
      rewrite sumR_plus, sumR_mult, sumR_const, seq_length, sum_square by auto. ring.
Qed.
Lemma sum2_app : forall m a b fa fb, length fa = length a -> sum2 m (a ++ b) (fa ++ fb) = sum2 m a fa + sum2 m b fb.
Proof.
  induction a as [|x a IH]; intros b fa fb H; destruct fa; try discriminate; cbn; [lra|]. injection H as H. rewrite IH by auto. lra.
Qed.
Lemma sum2_repeat : forall m k n f, sum2 m (repeat k n) (repeat f n) = INR n * m k f.
Proof. induction n as [|n IH]; intros f; [cbn; lra|]. cbn [repeat sum2]. rewrite IH, S_INR. ring. Qed.
Lemma score_app : forall fa fb a b, length fa = length a -> score (fa ++ fb) (a ++ b) = score fa a + score fb b.
Proof. induction fa as [|f fa IH]; intros fb a b H; destruct a; try discriminate; cbn; [lra|]. injection H as H. rewrite IH by auto. lra. Qed.
Lemma score_repeat : forall f v, score (repeat f (length v)) v = sumR (map f v).
Proof. induction v as [|d v IH]; cbn; [lra|]. rewrite IH. lra. Qed.
(** [n] draws from [n] values. *)
Lemma avg_n : forall n f, INR n * avg n f = sumR (map f (seq 0 n)).
Proof.
  intros n f. destruct n as [|n]; [cbn; lra|]. unfold avg. field. apply not_0_INR. lia.
Qed.
Lemma dev_n : forall n f, INR n * dev n f = sumR (map (fun d => (f d - sumR (map f (seq 0 n)) / INR n) ^ 2) (seq 0 n)).
Proof.
  intros n f. destruct n as [|n]; [cbn; lra|]. unfold dev, avg. field. apply not_0_INR. lia.
Qed.
Lemma all_draws_ne : forall ks, (forall k, In k ks -> (0 < k)%nat) -> 0 < INR (length (all_draws ks)).
Proof.
  intros ks H. apply lt_0_INR. assert (Hi : In (map (fun _ => 0%nat) ks) (all_draws ks)).
  { apply in_all_draws. induction ks as [|k ks IH]; cbn; constructor; [apply H; left; auto|apply IH; intros; apply H; right; auto]. }
  destruct (all_draws ks); [destruct Hi|cbn; lia].
Qed.

(** ** Sums over the samples of a thread and of a run *)
Definition thread_sum (g : Z * list Z -> R) (r : run) (labs : list Z) (k : nat) : R :=
  sumR (map g (samples_of_thread r labs (Z.of_nat k))).
Definition run_sum (g : Z * list Z -> R) (r : run) : R := sumR (map g (combine (logl r) (theta r))).
Lemma threads_total : forall g r labs tmm, consistent r labs tmm ->
    sumR (map (thread_sum g r labs) (seq 0 (length tmm))) = run_sum g r.
Proof.
  intros g r labs tmm (_ & _ & Hv). destruct Hv as (_ & Hll & Hlt & _ & _ & Hlab & _). rewrite map_length in Hlab.
  unfold thread_sum, run_sum, samples_of_thread.
  assert (Hls : length labs = length (combine (logl r) (theta r))) by (rewrite combine_length; lia).
  assert (Hr : forall x, In x labs -> (0 <= x < Z.of_nat (length tmm))%Z) by (intros; apply Hlab; auto).
  clear Hlab Hll Hlt. revert Hls Hr. generalize (combine (logl r) (theta r)) as ss. generalize labs as ls.
  induction ls as [|x ls IH]; intros [|s ss] Hl Hr; try discriminate.
  - cbn [combine filter map sumR]. rewrite sumR_const. ring.
  - injection Hl as Hl. cbn [combine filter].
    rewrite (sumR_ext_in _ _ (fun k => (if Nat.eqb k (Z.to_nat x) then g s else 0)
                                  + sumR (map g (map snd (filter (fun q => (fst q =? Z.of_nat k)%Z) (combine ls ss)))))).
    + rewrite sumR_plus, (IH ss) by (auto; intros; apply Hr; right; auto). cbn [map sumR]. f_equal.
      specialize (Hr x (or_introl eq_refl)). assert (Hx : (Z.to_nat x < length tmm)%nat) by lia.
      replace (length tmm) with (Z.to_nat x + S (length tmm - S (Z.to_nat x)))%nat by lia.
      rewrite seq_app, map_app, sumR_app'. cbn [seq map Nat.add sumR]. rewrite Nat.eqb_refl.
      assert (Hz : forall l, (forall k, In k l -> k <> Z.to_nat x) -> sumR (map (fun k => if Nat.eqb k (Z.to_nat x) then g s else 0) l) = 0).
      { intros l Hi. rewrite (sumR_ext_in _ _ (fun _ => 0)); [rewrite sumR_const; ring|].
        intros k Hk. destruct (Nat.eqb_spec k (Z.to_nat x)); auto. exfalso. eapply Hi; eauto. }
      rewrite !Hz; [lra| |]; intros k Hk; apply in_seq in Hk; lia.
    + intros k Hk. apply in_seq in Hk. specialize (Hr x (or_introl eq_refl)). cbn [fst].
      destruct (Nat.eqb_spec k (Z.to_nat x)) as [->|Hne].
      * rewrite Z2Nat.id by lia. rewrite Z.eqb_refl. cbn [map snd sumR]. auto.
      * destruct (Z.eqb_spec x (Z.of_nat k)); [lia|]. lra.
Qed.
Lemma sum_flat : forall g r labs inds,
    sumR (map g (flat_map (fun i => samples_of_thread r labs (Z.of_nat i)) inds)) = sumR (map (thread_sum g r labs) inds).
Proof. induction inds as [|i inds IH]; auto. cbn [flat_map map]. rewrite map_app, sumR_app', IH. reflexivity. Qed.
Lemma run_sum_perm : forall g r labs rr inds,
    Permutation (combine (logl rr) (theta rr)) (flat_map (fun i => samples_of_thread r labs (Z.of_nat i)) inds) ->
    run_sum g rr = sumR (map (thread_sum g r labs) inds).
Proof. intros. unfold run_sum. rewrite (sumR_perm' _ _ (Permutation_map _ H)). apply sum_flat. Qed.

Lemma sums_of : forall g rrs r labs tmm ks fs all (inds : list nat -> list nat), consistent r labs tmm ->
    length fs = length ks -> (forall k, In k ks -> (0 < k)%nat) -> Permutation all (all_draws ks) ->
    (forall draws, In draws all -> score fs draws = sumR (map (thread_sum g r labs) (inds draws))) ->
    Forall2 (fun draws rr => Permutation (combine (logl rr) (theta rr))
                               (flat_map (fun i => samples_of_thread r labs (Z.of_nat i)) (inds draws))) all rrs ->
    sum2 avg ks fs = run_sum g r ->
    mean (map (run_sum g) rrs) = run_sum g r /\
    mean (map (fun rr => (run_sum g rr - run_sum g r) ^ 2) rrs) = sum2 dev ks fs.
Proof.
  intros g rrs r labs tmm ks fs all inds Hc Hl Hk Hp Hs HF Ha.
  assert (E : map (run_sum g) rrs = map (score fs) all).
  { clear - Hs HF. induction HF; auto. cbn [map]. f_equal.
    - rewrite (run_sum_perm _ _ _ _ _ H). symmetry. apply Hs. left; auto.
    - apply IHHF. intros; apply Hs; right; auto. }
  assert (E2 : map (fun rr => (run_sum g rr - run_sum g r) ^ 2) rrs = map (fun v => (score fs v - run_sum g r) ^ 2) all).
  { rewrite <- (map_map (run_sum g) (fun x => (x - run_sum g r) ^ 2)), E, map_map. auto. }
  pose proof (all_draws_ne ks Hk). destruct (all_draws_sum ks fs (run_sum g r) Hl Hk) as (S1 & S2).
  unfold mean. rewrite E2, E, !map_length, (Permutation_length Hp).
  rewrite (sumR_perm' _ _ (Permutation_map (score fs) Hp)), (sumR_perm' _ _ (Permutation_map (fun v => (score fs v - run_sum g r) ^ 2) Hp)).
  rewrite S1, S2, Ha. split; field; lra.
Qed.
Lemma forall2_lt_repeat : forall v n, Forall2 lt v (repeat n (length v)) <-> forall d, In d v -> (d < n)%nat.
Proof.
  induction v as [|x v IH]; intros n; cbn [length repeat]; split.
  - intros _ d [].
  - constructor.
  - intros H d [<-|Hd]; inversion H; subst; auto. apply (proj1 (IH n)); auto.
  - intros H. constructor; [apply H; left; auto|]. apply IH. intros; apply H; right; auto.
Qed.
Lemma forall2_len : forall A B (P : A -> B -> Prop) a b, Forall2 P a b -> length a = length b.
Proof. induction 1; cbn; auto. Qed.
Lemma choose_runs : forall A B (P R : A -> B -> Prop) l,
    (forall a, In a l -> exists b, P a b /\ R a b) -> exists bs, Forall2 P l bs /\ Forall2 R l bs.
Proof.
  intros A B P R l. induction l as [|a l IH]; intros H; [exists []; split; constructor|].
  destruct (H a (or_introl eq_refl)) as (b & H1 & H2). destruct IH as (bs & H3 & H4); [intros; apply H; right; auto|].
  exists (b :: bs). split; constructor; auto.
Qed.

(** [all] are the sequences of [n] draws of threads, which with fair draws have
    equal probability.  For any function [g] of a sample the sum over the
    samples of the resample has as its mean the sum over the samples of the
    run, and as its variance the sum over the threads of the squared deviations
    of their sums from the mean one. *)
Theorem C107_resample_variance : forall g r labs tmm ws all, consistent r labs tmm ->
    (forall m e, ~ In (Fin m, e) tmm) ->
    (forall i j, (i < j < length (logl r))%nat -> nth i labs 0%Z = nth j labs 0%Z ->
                 (nth i (logl r) 0 < nth j (logl r) 0)%Z) ->
    let n := length tmm in
    NoDup all -> (forall draws, In draws all <-> length draws = n /\ forall d, In d draws -> (d < n)%nat) ->
    exists rrs, Forall2 (fun draws rr => bootstrap_resample_run r None false BKeep (tape draws ws) =
                                         (Ok rr, tape_end (repeat n n) ws)) all rrs /\
      mean (map (run_sum g) rrs) = run_sum g r /\
      mean (map (fun rr => (run_sum g rr - run_sum g r) ^ 2) rrs) =
      sumR (map (fun k => (thread_sum g r labs k - run_sum g r / INR n) ^ 2) (seq 0 n)).
Proof.
  intros g r labs tmm ws all Hc Hst Hinc n Hn Hall.
  assert (Hp : Permutation all (all_draws (repeat n n))).
  { apply NoDup_Permutation; auto; [apply all_draws_NoDup|]. intros v. rewrite Hall, in_all_draws. split.
    - intros (Hl & Hd). rewrite <- Hl at 2. apply forall2_lt_repeat. auto.
    - intros H. assert (Hl : length v = n) by (apply forall2_len in H; rewrite repeat_length in H; auto).
      split; auto. apply forall2_lt_repeat. rewrite Hl. auto. }
  destruct (choose_runs (list nat) run
     (fun draws rr => bootstrap_resample_run r None false BKeep (tape draws ws) = (Ok rr, tape_end (repeat n n) ws))
     (fun draws rr => Permutation (combine (logl rr) (theta rr)) (flat_map (fun i => samples_of_thread r labs (Z.of_nat i)) draws)) all)
    as (rrs & H1 & H2).
  { intros draws Hd. apply Hall in Hd as (Hl & Hd).
    destruct (C25_bootstrap_static tape_env r labs tmm BKeep (tape draws ws) I Hc Hst Hinc) as (_ & _ & rr & H1 & H2 & _).
    cbn [w_rng w_warn seeded_state tape] in H1, H2. fold n in H1, H2.
    pose proof (tape_draws n draws [] [] Hd) as Ht. rewrite app_nil_r, Hl in Ht. cbn [app] in Ht.
    unfold tape_env in Ht, H1, H2. cbn [rst] in H1, H2. rewrite Ht in H1, H2. exists rr. split; [exact H1|exact H2]. }
  exists rrs. split; auto.
  assert (Hdev : sumR (map (fun k => (thread_sum g r labs k - run_sum g r / INR n) ^ 2) (seq 0 n)) =
               sum2 dev (repeat n n) (repeat (thread_sum g r labs) n)).
  { rewrite sum2_repeat, dev_n. unfold n. rewrite (threads_total g r labs tmm Hc). auto. }
  rewrite Hdev.
  apply (sums_of g rrs r labs tmm (repeat n n) (repeat (thread_sum g r labs) n) all (fun v => v)); auto.
  - rewrite !repeat_length. auto.
  - intros k Hk. pose proof (repeat_spec _ _ _ Hk) as ->. destruct n; [destruct Hk|lia].
  - intros draws Hd. apply Hall in Hd as (Hl & _). rewrite <- Hl. apply score_repeat.
  - rewrite sum2_repeat, avg_n. apply threads_total. auto.
Qed.
Print Assumptions C107_resample_variance.

(** With ninit_sep: [ninit] draws of the threads from the whole prior, then of
    the other ones.  Both kinds of threads add to the variance as above.  The
    hypotheses are those of C62. *)
Theorem C107_ninit_sep : forall g r labs tmm ninit ws all, consistent r labs tmm ->
    (forall i j, (i < j < length (logl r))%nat -> nth i labs 0%Z = nth j labs 0%Z ->
                 (nth i (logl r) 0 < nth j (logl r) 0)%Z) ->
    (forall k f, (k < length tmm)%nat -> first_of labs (Z.of_nat k) f ->
       starts_below (fst (nth k tmm (NInf, 0%Z))) (nth f (logl r) 0%Z) = true) ->
    settings r = Some (Some ninit) -> (0 < ninit <= length tmm)%nat ->
    (forall k, (k < length tmm)%nat -> fst (nth k tmm (NInf, 0%Z)) = NInf <-> (k < ninit)%nat) ->
    (forall j k s, (j < ninit)%nat -> (k < length tmm)%nat -> fst (nth k tmm (NInf, 0%Z)) = Fin s ->
       supports r labs tmm j k s) ->
    let m := (length tmm - ninit)%nat in
    NoDup all ->
    (forall draws, In draws all <-> length draws = length tmm /\ (forall d, In d (firstn ninit draws) -> (d < ninit)%nat) /\
                                    forall d, In d (skipn ninit draws) -> (d < m)%nat) ->
    exists rrs, Forall2 (fun draws rr => fst (bootstrap_resample_run r None true BKeep (tape draws ws)) = Ok rr) all rrs /\
      mean (map (run_sum g) rrs) = run_sum g r /\
      let spread ks := sumR (map (fun k => (thread_sum g r labs k - mean (map (thread_sum g r labs) ks)) ^ 2) ks) in
      mean (map (fun rr => (run_sum g rr - run_sum g r) ^ 2) rrs) = spread (seq 0 ninit) + spread (seq ninit m).
Proof.
  intros g r labs tmm ninit ws all Hc Hinc Hab Hset Hni Hini Hsup m Hn Hall.
  set (T := thread_sum g r labs).
  assert (Hm : length tmm = (ninit + m)%nat) by (unfold m; lia).
  assert (Hp : Permutation all (all_draws (repeat ninit ninit ++ repeat m m))).
  { apply NoDup_Permutation; auto; [apply all_draws_NoDup|]. intros v. rewrite Hall, in_all_draws. split.
    - intros (Hl & H1 & H2). rewrite <- (firstn_skipn ninit v). apply Forall2_app.
      + replace ninit with (length (firstn ninit v)) at 3 by (rewrite firstn_length; lia). apply forall2_lt_repeat. auto.
      + replace m with (length (skipn ninit v)) at 2 by (rewrite skipn_length; lia). apply forall2_lt_repeat. auto.
    - intros H. assert (Hl : length v = length tmm) by (apply forall2_len in H; rewrite app_length, !repeat_length in H; lia).
      split; auto. apply Forall2_app_inv_r in H as (a & b & Ha & Hb & ->).
      pose proof (forall2_len _ _ _ _ _ Ha) as La. pose proof (forall2_len _ _ _ _ _ Hb) as Lb. rewrite repeat_length in La, Lb.
      assert (F1 : firstn ninit (a ++ b) = a) by (rewrite <- La, firstn_app, firstn_all, Nat.sub_diag; cbn; apply app_nil_r).
      assert (F2 : skipn ninit (a ++ b) = b) by (rewrite <- La, skipn_app, skipn_all, Nat.sub_diag; auto).
      rewrite F1, F2.
      split; apply forall2_lt_repeat; [rewrite La|rewrite Lb]; auto. }
  set (inds := fun draws => firstn ninit draws ++ map (Nat.add ninit) (skipn ninit draws)).
  destruct (choose_runs (list nat) run
     (fun draws rr => fst (bootstrap_resample_run r None true BKeep (tape draws ws)) = Ok rr)
     (fun draws rr => Permutation (combine (logl rr) (theta rr)) (flat_map (fun i => samples_of_thread r labs (Z.of_nat i)) (inds draws))) all)
    as (rrs & H1 & H2).
  { intros draws Hd. apply Hall in Hd as (Hl & D1 & D2).
    destruct (C62_ninit_sep_succeeds r labs tmm ninit Hc Hinc Hab Hset Hni Hini Hsup tape_env BKeep (tape draws ws) I) as (rr & w' & Hb).
    exists rr. split; [rewrite Hb; auto|].
    destruct (C27_ninit_sep tape_env r labs tmm ninit BKeep (tape draws ws) rr w' Hc Hset Hb) as (_ & _ & _ & _ & _ & _ & HP).
    cbn [w_rng w_warn seeded_state tape] in HP. fold m in HP.
    pose proof (tape_draws ninit (firstn ninit draws) (skipn ninit draws) [] D1) as T1.
    rewrite firstn_skipn, firstn_length, Nat.min_l in T1 by lia. cbn [app] in T1.
    unfold tape_env in T1, HP. cbn [rst] in HP. rewrite T1 in HP. cbn [fst snd] in HP.
    pose proof (tape_draws m (skipn ninit draws) [] (repeat ninit ninit) D2) as T2.
    rewrite app_nil_r, skipn_length in T2. replace (length draws - ninit)%nat with m in T2 by lia.
    unfold tape_env in T2. rewrite T2 in HP. exact HP. }
  exists rrs. split; auto.
  assert (Hsplit : sumR (map T (seq 0 ninit)) + sumR (map T (seq ninit m)) = run_sum g r).
  { rewrite <- (threads_total g r labs tmm Hc), Hm, seq_app, map_app, sumR_app'. auto. }
  assert (Hsh : forall f : nat -> R, map (fun d => f (ninit + d)%nat) (seq 0 m) = map f (seq ninit m)).
  { intros f. rewrite <- (map_map (Nat.add ninit) f). f_equal. assert (G : forall s, map (Nat.add ninit) (seq s m) = seq (ninit + s) m).
    { clear. induction m as [|m IH]; intros s; auto. cbn [seq map]. f_equal. rewrite IH. f_equal. lia. }
    rewrite G. f_equal. lia. }
  destruct (sums_of g rrs r labs tmm (repeat ninit ninit ++ repeat m m) (repeat T ninit ++ repeat (fun d => T (ninit + d)%nat) m) all inds) as (A & B); auto.
  - rewrite !app_length, !repeat_length. auto.
  - intros k Hk. apply in_app_iff in Hk as [Hk|Hk]; pose proof (repeat_spec _ _ _ Hk) as ->; [lia|]. destruct m; [destruct Hk|lia].
  - intros draws Hd. apply Hall in Hd as (Hl & _). unfold inds.
    rewrite <- (firstn_skipn ninit draws) at 1. rewrite score_app by (rewrite repeat_length, firstn_length; lia).
    rewrite map_app, sumR_app', map_map.
    replace ninit with (length (firstn ninit draws)) at 1 by (rewrite firstn_length; lia).
    replace m with (length (skipn ninit draws)) at 1 by (rewrite skipn_length; lia). rewrite !score_repeat. reflexivity.
  - rewrite sum2_app, !sum2_repeat, !avg_n, Hsh by (rewrite !repeat_length; auto). auto.
  - split; auto. rewrite B, sum2_app, !sum2_repeat, !dev_n by (rewrite !repeat_length; auto). cbn zeta.
    unfold mean. rewrite !map_length, !seq_length. rewrite Hsh.
    rewrite (Hsh (fun d => (T d - sumR (map T (seq ninit m)) / INR m) ^ 2)). reflexivity.
Qed.
Print Assumptions C107_ninit_sep.

(** Numbers of samples.  The run has threads of 1 and 2 samples, the four
    resamples have 2, 3, 3, 4: the variance is 1/2. *)
Example C107_example : exists all : list (list nat), NoDup all /\
    (forall draws, In draws all <-> length draws = 2%nat /\ forall d, In d draws -> (d < 2)%nat) /\
    (consistent run_other [1; 0; 1]%Z [(NInf, 4); (NInf, 8)]%Z /\
     (forall m e, ~ In (Fin m, e) [(NInf, 4); (NInf, 8)]%Z) /\
     (forall i j, (i < j < length (logl run_other))%nat -> nth i [1; 0; 1]%Z 0%Z = nth j [1; 0; 1]%Z 0%Z ->
                 (nth i (logl run_other) 0 < nth j (logl run_other) 0)%Z)) /\
    let n k := thread_sum (fun _ => 1) run_other [1; 0; 1]%Z k in
    n 0%nat = 1 /\ n 1%nat = 2 /\ run_sum (fun _ => 1) run_other = 3 /\
    (n 0%nat - 3 / INR 2) ^ 2 + (n 1%nat - 3 / INR 2) ^ 2 = 1 / 2.
Proof.
  destruct C90_example as (all & H1 & H2 & _). exists all. split; auto. split; auto. split; [exact C25_example|].
  cbv zeta. assert (E0 : thread_sum (fun _ => 1) run_other [1; 0; 1]%Z 0 = 1) by (cbn; lra).
  assert (E1 : thread_sum (fun _ => 1) run_other [1; 0; 1]%Z 1 = 2) by (cbn; lra).
  split; auto. split; auto. split; [cbn; lra|]. rewrite E0, E1. cbn [INR]. lra.
Qed.
(** Two threads from the whole prior with 2 and 1 samples, one other. *)
Example C107_ninit_example : exists all : list (list nat), NoDup all /\
    (forall draws, In draws all <-> length draws = 3%nat /\ (forall d, In d (firstn 2 draws) -> (d < 2)%nat) /\
                                    forall d, In d (skipn 2 draws) -> (d < 3 - 2)%nat) /\
    let labs := [0; 1; 0; 2]%Z in let tmm := [(NInf, 3); (NInf, 2); (Fin 3, 4)]%Z in
    consistent run_near labs tmm /\
    (forall i j, (i < j < length (logl run_near))%nat -> nth i labs 0%Z = nth j labs 0%Z ->
                 (nth i (logl run_near) 0 < nth j (logl run_near) 0)%Z) /\
    (forall k f, (k < length tmm)%nat -> first_of labs (Z.of_nat k) f ->
       starts_below (fst (nth k tmm (NInf, 0%Z))) (nth f (logl run_near) 0%Z) = true) /\
    settings run_near = Some (Some 2%nat) /\
    (forall k, (k < length tmm)%nat -> fst (nth k tmm (NInf, 0%Z)) = NInf <-> (k < 2)%nat) /\
    (forall j k s, (j < 2)%nat -> (k < length tmm)%nat -> fst (nth k tmm (NInf, 0%Z)) = Fin s ->
       supports run_near labs tmm j k s) /\
    map (thread_sum (fun _ => 1) run_near labs) [0; 1; 2]%nat = [2; 1; 1] /\
    map (fun d => match fst (bootstrap_resample_run run_near None true BKeep (tape d [])) with Ok rr => logl rr | _ => [] end)
        all = [[1; 1; 3; 3; 4]; [1; 2; 3; 4]; [1; 2; 3; 4]; [2; 2; 4]]%Z.
Proof.
  exists (all_draws [2; 2; 1]%nat). split; [apply all_draws_NoDup|]. split.
  { intros v. rewrite in_all_draws. split.
    - intros H. inversion H; subst. inversion H4; subst. inversion H6; subst. inversion H8; subst. split; auto.
      cbn [firstn skipn]. split; [intros d [<-|[<-|[]]]; auto|intros d [<-|[]]; auto].
    - intros (Hl & Hd & He). destruct v as [|a [|b [|c [|e v]]]]; try discriminate. cbn [firstn skipn] in *.
      constructor; [apply Hd; cbn; auto|]. constructor; [apply Hd; cbn; auto|]. constructor; [apply He; cbn; auto|constructor]. }
  cbv zeta. destruct C62_example as ((Hc & Hn & Hf & Hm & Hl) & Hk & Hs & _).
  split; auto. split.
  { intros i j Hij _. cbn [logl run_near length] in *. four i; four j; cbn; lia. }
  split; auto. split; auto. split; auto. split; [intros; apply Hs; auto|]. split; [cbn; repeat f_equal; lra|].
  vm_compute. reflexivity.
Qed.
