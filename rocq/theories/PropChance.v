(** C89, C90: the random choices are fair. *)
From Verif Require Import Base ModelRun ModelData ModelBoot Envs Spec SpecRun
     ProofBase ProofMonad ProofBirth ProofRun ProofBoot PropCombine PropBoot.

(** A generator which reads its numbers from a list and notes for each of them
    how many values were possible. *)
Definition tape_below (n : nat) (s : list nat * list nat) : nat * (list nat * list nat) :=
  match fst s with
  | [] => (0%nat, ([], snd s ++ [n]))
  | d :: t => (Nat.modulo d n, (t, snd s ++ [n]))
  end.
Lemma tape_below_ok : forall n s, (0 < n)%nat -> (fst (tape_below n s) < n)%nat.
Proof. intros n [[|d t] l] H; simpl; auto. apply Nat.mod_upper_bound. lia. Qed.
Definition tape_env : env :=
  mkEnv (list nat * list nat) (fun _ => ([], [])) tape_below tape_below_ok isort isort_perm isort_sorted.
(** The generator before it returns the numbers [draws], with nothing noted. *)
Definition tape (draws : list nat) (ws : list warning) : world tape_env := @mkW tape_env (draws, []) ws.
(** ... and after all of them were returned, from ranges of the sizes [ks]. *)
Definition tape_end (ks : list nat) (ws : list warning) : world tape_env := @mkW tape_env ([], ks) ws.

(** ** C89 *)

Definition options (k : nat) (choices cond : list Z) : list nat :=
  map (fun i => length (filter (fun x => (x <? nth i cond 0)%Z) choices) - i)%nat (seq 0 k).

Lemma countb_filter : forall A (p : A -> bool) l, countb p l = length (filter p l).
Proof. induction l as [|x l IH]; simpl; auto. destruct (p x); simpl; auto. Qed.
Lemma options_step : forall k choices c cond sel,
    StronglySorted Z.le (c :: cond) -> (k <= length cond)%nat ->
    (sel < length choices)%nat -> nth sel choices 0 < c ->
    options (S k) choices (c :: cond) =
    length (where_ (fun x => x <? c) choices) :: options k (delete sel choices) cond.
Proof.
  intros k choices c cond sel Hs Hk Hsel Hlt. unfold options. cbn [seq map nth].
  rewrite where_length, countb_filter, Nat.sub_0_r. f_equal. rewrite <- seq_shift, map_map.
  apply map_ext_in. intros i Hi. apply in_seq in Hi. cbn [nth].
  rewrite <- !countb_filter, (countb_perm _ _ _ _ (delete_perm _ 0 choices sel Hsel)). cbn [countb].
  inversion Hs; subst. rewrite Forall_forall in H2.
  assert (c <= nth i cond 0) by (apply H2, nth_In; lia).
  replace (nth sel choices 0 <? nth i cond 0) with true by (symmetry; apply Z.ltb_lt; lia). lia.
Qed.
Lemma choice_tape : forall A (d0 : A) l d t log ws, (d < length l)%nat ->
    choice l (@mkW tape_env (d :: t, log) ws) = (Ok (nth d l d0), @mkW tape_env (t, log ++ [length l]) ws).
Proof.
  intros A d0 [|x l] d t log ws H; [simpl in H; lia|]. unfold choice, wbind, below. cbn [w_rng r_below tape_env].
  unfold tape_below. cbn [fst snd]. rewrite Nat.mod_small by auto. unfold wret. f_equal. f_equal.
  apply nth_indep. auto.
Qed.
Lemma delete_NoDup : forall (l : list Z) i, (i < length l)%nat -> NoDup l -> NoDup (delete i l).
Proof.
  intros l i Hi Hn. pose proof (delete_perm _ 0 l i Hi) as Hp. apply (Permutation_NoDup Hp) in Hn.
  inversion Hn; auto.
Qed.

(** One step: the result for the draws [d :: ds]. *)
Lemma slt_step : forall k choices c cond d ds log ws,
    (d < length (where_ (fun x => (x <? c)%Z) choices))%nat ->
    let sel := nth d (where_ (fun x => x <? c) choices) 0%nat in
    (sel < length choices)%nat /\ nth sel choices 0 < c /\
    slt_loop (S k) choices (c :: cond) (@mkW tape_env (d :: ds, log) ws) =
    match slt_loop k (delete sel choices) cond
            (@mkW tape_env (ds, log ++ [length (where_ (fun x => x <? c) choices)]) ws) with
    | (Ok out, w) => (Ok (nth sel choices 0 :: out), w)
    | (Raise e, w) => (Raise e, w)
    end.
Proof.
  intros k choices c cond d ds log ws Hd sel.
  destruct (in_avail c choices sel) as (H1 & H2); [apply nth_In; auto|]. split; auto. split; auto.
  cbn [slt_loop]. rewrite (wbind_run _ _ _ _ _ _ _ _ (choice_tape _ 0%nat _ d ds log ws Hd)). fold sel.
  destruct (slt_loop k (delete sel choices) cond _) as [[out|e] w] eqn:H.
  - rewrite (wbind_run _ _ _ _ _ _ _ _ H). reflexivity.
  - rewrite (wbind_raise _ _ _ _ _ _ _ _ H). reflexivity.
Qed.

Lemma slt_runs : forall k choices cond log ws draws,
    StronglySorted Z.le cond -> (k <= length cond)%nat ->
    Forall2 lt draws (options k choices cond) ->
    exists out, slt_loop k choices cond (@mkW tape_env (draws, log) ws) =
                (Ok out, @mkW tape_env ([], log ++ options k choices cond) ws).
Proof.
  induction k as [|k IH]; intros choices cond log ws draws Hs Hk HF.
  - inversion HF; subst. exists []. cbn. unfold options. cbn. rewrite app_nil_r. reflexivity.
  - destruct cond as [|c cond]; [simpl in Hk; lia|]. simpl in Hk.
    assert (Hd : exists d ds, draws = d :: ds /\ (d < length (where_ (fun x => (x <? c)%Z) choices))%nat).
    { unfold options in HF. cbn [seq map nth] in HF. rewrite Nat.sub_0_r in HF. inversion HF; subst.
      do 2 eexists. split; [reflexivity|]. rewrite where_length, countb_filter. auto. }
    destruct Hd as (d & ds & -> & Hd).
    destruct (slt_step k choices c cond d ds log ws Hd) as (H1 & H2 & ->).
    set (sel := nth d _ 0%nat) in *. rewrite (options_step k choices c cond sel) in * by (auto; lia).
    inversion HF; subst. inversion Hs; subst.
    destruct (IH (delete sel choices) cond (log ++ [length (where_ (fun x => x <? c) choices)]) ws ds) as (out & ->);
      auto; try lia.
    eexists. rewrite <- app_assoc. reflexivity.
Qed.

Lemma slt_reached : forall k choices cond log ws out, NoDup choices ->
    StronglySorted Z.le cond -> (k <= length cond)%nat ->
    length out = k -> (exists rest, Permutation (out ++ rest) choices) ->
    (forall i, (i < k)%nat -> nth i out 0 < nth i cond 0) ->
    exists draws, Forall2 lt draws (options k choices cond) /\
      fst (slt_loop k choices cond (@mkW tape_env (draws, log) ws)) = Ok out.
Proof.
  induction k as [|k IH]; intros choices cond log ws out Hn Hs Hk Hl (rest & Hp) Hlt.
  - destruct out; [|discriminate]. exists []. split; [constructor|reflexivity].
  - destruct cond as [|c cond]; [simpl in Hk; lia|]. simpl in Hk. destruct out as [|x out]; [discriminate|].
    injection Hl as Hl.
    assert (Hx : In x choices) by (apply (Permutation_in x Hp); left; auto).
    pose proof (Hlt 0%nat ltac:(lia)) as Hxc. cbn in Hxc.
    destruct (In_nth _ _ 0 Hx) as (sel & Hsel & Hsx).
    assert (Ha : In sel (where_ (fun x => x <? c) choices)).
    { apply (in_where _ _ 0). split; auto. rewrite Hsx. apply Z.ltb_lt. auto. }
    destruct (In_nth _ _ 0%nat Ha) as (d & Hd & Hds).
    pose proof (delete_perm _ 0 choices sel Hsel) as Hdel. rewrite Hsx in Hdel.
    assert (Hp' : Permutation (out ++ rest) (delete sel choices)).
    { apply Permutation_cons_inv with (a := x). etransitivity; [exact Hp|exact Hdel]. }
    destruct (IH (delete sel choices) cond (log ++ [length (where_ (fun x => x <? c) choices)]) ws out) as (ds & HF & He); auto.
    { apply delete_NoDup; auto. }
    { inversion Hs; auto. }
    { lia. }
    { eauto. }
    { intros i Hi. apply (Hlt (S i)). lia. }
    exists (d :: ds). split.
    + rewrite (options_step k choices c cond sel) by (auto; lia). constructor; auto.
    + destruct (slt_step k choices c cond d ds log ws Hd) as (_ & _ & ->). rewrite Hds, Hsx.
      destruct (slt_loop k (delete sel choices) cond _) as [[o|] w]; cbn in He |- *; congruence.
Qed.

Lemma slt_once : forall k choices cond log log' ws ws' draws draws' out, NoDup choices ->
    StronglySorted Z.le cond -> (k <= length cond)%nat ->
    Forall2 lt draws (options k choices cond) -> Forall2 lt draws' (options k choices cond) ->
    fst (slt_loop k choices cond (@mkW tape_env (draws, log) ws)) = Ok out ->
    fst (slt_loop k choices cond (@mkW tape_env (draws', log') ws')) = Ok out -> draws = draws'.
Proof.
  induction k as [|k IH]; intros choices cond log log' ws ws' draws draws' out Hn Hs Hk HF HF' H H'.
  - inversion HF; inversion HF'; auto.
  - destruct cond as [|c cond]; [simpl in Hk; lia|]. simpl in Hk.
    assert (Hd : forall draws, Forall2 lt draws (options (S k) choices (c :: cond)) ->
               exists d ds, draws = d :: ds /\ (d < length (where_ (fun x => (x <? c)%Z) choices))%nat).
    { intros dr HF0. unfold options in HF0. cbn [seq map nth] in HF0. rewrite Nat.sub_0_r in HF0. inversion HF0; subst.
      do 2 eexists. split; [reflexivity|]. rewrite where_length, countb_filter. auto. }
    destruct (Hd draws HF) as (d & ds & -> & Hd1). destruct (Hd draws' HF') as (d' & ds' & -> & Hd2). clear Hd.
    destruct (slt_step k choices c cond d ds log ws Hd1) as (A1 & A2 & A3). rewrite A3 in H. clear A3.
    destruct (slt_step k choices c cond d' ds' log' ws' Hd2) as (B1 & B2 & B3). rewrite B3 in H'. clear B3.
    set (sel := nth d _ 0%nat) in *. set (sel' := nth d' _ 0%nat) in *.
    destruct (slt_loop k (delete sel choices) cond _) as [[o|] w] eqn:E1; [|discriminate].
    destruct (slt_loop k (delete sel' choices) cond _) as [[o'|] w'] eqn:E2; [|discriminate].
    cbn in H, H'. injection H as <-. injection H' as Hx Ho. subst o'.
    assert (sel' = sel) by (eapply (proj1 (NoDup_nth choices 0)); eauto). subst sel'.
    assert (d = d').
    { eapply (proj1 (NoDup_nth (where_ (fun x => x <? c) choices) 0%nat)); auto. apply where_NoDup. }
    subst d'. f_equal. rewrite (options_step k choices c cond sel) in * by (auto; lia).
    inversion HF; inversion HF'; subst. inversion Hs; subst.
    eapply (IH (delete sel choices) cond) with (out := o); eauto; try lia.
    + apply delete_NoDup; auto.
    + rewrite E1. auto.
    + rewrite H in *. rewrite E2. auto.
Qed.

(** How many values are possible at each step does not depend on the earlier
    draws, and each allocation comes from exactly one sequence of draws: with
    fair draws all allocations have the same probability. *)
Theorem C89_fair_allocation : forall choices cond ws, NoDup choices -> StronglySorted Z.le cond ->
    let n := Nat.min (length cond) (length choices) in
    let ks := map (fun i => length (filter (fun x => (x <? nth i cond 0)%Z) choices) - i)%nat (seq 0 n) in
    (forall draws, Forall2 lt draws ks ->
       exists out, sample_less_than_condition choices cond (tape draws ws) = (Ok out, tape_end ks ws) /\
                   allocation choices cond out) /\
    (forall out, allocation choices cond out ->
       exists! draws, Forall2 lt draws ks /\ fst (sample_less_than_condition choices cond (tape draws ws)) = Ok out).
Proof.
  intros choices cond ws Hn Hs n ks. change ks with (options n choices cond). unfold sample_less_than_condition.
  split.
  - intros draws HF. destruct (slt_runs n choices cond [] ws draws) as (out & H); auto; [unfold n; lia|].
    exists out. split; [exact H|].
    pose proof (slt_spec tape_env choices cond (tape draws ws)) as HS. unfold sample_less_than_condition in HS.
    fold n in HS. change (tape draws ws) with (@mkW tape_env (draws, []) ws) in HS. rewrite H in HS. apply HS.
  - intros out (A1 & A2 & A3). fold n in A1.
    destruct (slt_reached n choices cond [] ws out) as (draws & HF & H); auto; [unfold n; lia|intros; apply A3; lia|].
    exists draws. split; [split; [exact HF|exact H]|]. intros draws' (HF' & H').
    eapply (slt_once n choices cond); eauto. unfold n; lia.
Qed.
Print Assumptions C89_fair_allocation.

(** Three choices and two conditions: four allocations of equal probability. *)
Example C89_example : NoDup [1; 4; 2] /\ StronglySorted Z.le [3; 5] /\
    map (fun d => fst (sample_less_than_condition [1; 4; 2] [3; 5] (tape d [])))
        [[0; 0]; [0; 1]; [1; 0]; [1; 1]]%nat = [Ok [1; 4]; Ok [1; 2]; Ok [2; 1]; Ok [2; 4]].
Proof.
  split; [repeat constructor; cbn; intuition; discriminate|]. split; [repeat constructor; lia|]. vm_compute. reflexivity.
Qed.

(** ** C90 *)

(** All sequences of draws from ranges of the sizes [ks]. *)
Fixpoint all_draws (ks : list nat) : list (list nat) :=
  match ks with
  | [] => [[]]
  | k :: ks' => flat_map (fun d => map (cons d) (all_draws ks')) (seq 0 k)
  end.
Lemma in_all_draws : forall ks draws, In draws (all_draws ks) <-> Forall2 lt draws ks.
Proof.
  induction ks as [|k ks IH]; intros draws; cbn [all_draws].
  - split; [intros [<-|[]]; constructor|]. intros H; inversion H. left; auto.
  - rewrite in_flat_map. split.
    + intros (d & Hd & H). apply in_map_iff in H as (ds & <- & H). apply in_seq in Hd. constructor; [lia|]. apply IH. auto.
    + intros H. inversion H; subst. eexists. split; [apply in_seq; split; [lia|]; cbn; eauto|].
      apply in_map. apply IH. auto.
Qed.
Lemma NoDup_app_i : forall A (a b : list A), NoDup a -> NoDup b -> (forall x, In x a -> ~ In x b) -> NoDup (a ++ b).
Proof.
  induction a as [|x a IH]; intros b Ha Hb H; auto. inversion Ha; subst. cbn. constructor.
  - rewrite in_app_iff. intros [Hi|Hi]; auto. apply (H x); cbn; auto.
  - apply IH; auto. intros y Hy. apply H. right; auto.
Qed.
Lemma NoDup_map_i : forall A B (f : A -> B) l, (forall x y, f x = f y -> x = y) -> NoDup l -> NoDup (map f l).
Proof.
  intros A B f l Hf H. induction H as [|x l Hx Hl IH]; cbn; constructor; auto.
  rewrite in_map_iff. intros (y & He & Hy). apply Hf in He. congruence.
Qed.
Lemma all_draws_NoDup : forall ks, NoDup (all_draws ks).
Proof.
  induction ks as [|k ks IH]; cbn [all_draws]; [repeat constructor; auto|].
  generalize (seq_NoDup k 0). generalize (seq 0 k). intros l. induction l as [|d l IHl]; intros Hn; cbn [flat_map]; [constructor|].
  inversion Hn; subst. apply NoDup_app_i; auto.
  - apply NoDup_map_i; auto. congruence.
  - intros x Hx Hy. apply in_map_iff in Hx as (a & <- & _). apply in_flat_map in Hy as (d' & Hd' & Hy).
    apply in_map_iff in Hy as (b & He & _). congruence.
Qed.

Notation total := list_sum.
Lemma total_cons : forall x l, total (x :: l) = (x + total l)%nat.
Proof. reflexivity. Qed.
Lemma total_app : forall a b, total (a ++ b) = (total a + total b)%nat.
Proof. induction a; intros; auto. cbn [app]. rewrite !total_cons, IHa. lia. Qed.
Lemma total_perm : forall a b, Permutation a b -> total a = total b.
Proof. induction 1; rewrite ?total_cons; lia. Qed.
Lemma total_map_add : forall A (f g : A -> nat) l, total (map (fun x => f x + g x)%nat l) = (total (map f l) + total (map g l))%nat.
Proof. induction l; auto. cbn [map]. rewrite !total_cons, IHl. lia. Qed.
Lemma total_map_const : forall A c (l : list A), total (map (fun _ => c) l) = (length l * c)%nat.
Proof. induction l; auto. cbn [map length]. rewrite !total_cons, IHl. lia. Qed.
Lemma total_zero : forall A (f : A -> nat) l, (forall x, In x l -> f x = 0%nat) -> total (map f l) = 0%nat.
Proof. induction l; intros H; auto. cbn [map]. rewrite total_cons, H, IHl by (cbn; auto; intros; apply H; right; auto). auto. Qed.
Lemma total_map_mult : forall A c (f : A -> nat) l, total (map (fun x => c * f x)%nat l) = (c * total (map f l))%nat.
Proof. induction l; [cbn; lia|]. cbn [map]. rewrite !total_cons, IHl. lia. Qed.
Lemma total_flat_map : forall A B (h : B -> nat) (f : A -> list B) l,
    total (map h (flat_map f l)) = total (map (fun a => total (map h (f a))) l).
Proof. induction l; auto. cbn [flat_map map]. rewrite map_app, total_app, total_cons, IHl. auto. Qed.

Lemma all_draws_length : forall n k, length (all_draws (repeat n k)) = (n ^ k)%nat.
Proof.
  induction k as [|k IH]; auto. cbn [repeat all_draws].
  assert (H : forall l, length (flat_map (fun d => map (cons d) (all_draws (repeat n k))) l) = (length l * n ^ k)%nat).
  { induction l as [|d l IHl]; auto. cbn [flat_map]. rewrite app_length, map_length, IH, IHl. cbn. lia. }
  rewrite H, seq_length. cbn. lia.
Qed.
(** Each of [n] values is drawn in [k/n] of the places. *)
Lemma total_draws : forall (f : nat -> nat) n k,
    (n * total (map (fun v => total (map f v)) (all_draws (repeat n k))) = k * n ^ k * total (map f (seq 0 n)))%nat.
Proof.
  intros f n. induction k as [|k IH]; [cbn; lia|]. cbn [repeat all_draws].
  rewrite total_flat_map.
  assert (H : forall d, total (map (fun v => total (map f v)) (map (cons d) (all_draws (repeat n k))))
                        = (n ^ k * f d + total (map (fun v => total (map f v)) (all_draws (repeat n k))))%nat).
  { intros d. rewrite map_map.
    change (total (map (fun x => (f d + total (map f x))%nat) (all_draws (repeat n k))) =
            (n ^ k * f d + total (map (fun v => total (map f v)) (all_draws (repeat n k))))%nat).
    rewrite (total_map_add _ (fun _ => f d)), total_map_const, all_draws_length. auto. }
  erewrite map_ext; [|exact H]. rewrite total_map_add, total_map_const, total_map_mult, seq_length.
  set (S1 := total (map (fun v => total (map f v)) (all_draws (repeat n k)))) in *.
  set (S0 := total (map f (seq 0 n))) in *. rewrite Nat.pow_succ_r'. nia.
Qed.
Lemma total_draws_n : forall (f : nat -> nat) n,
    total (map (fun v => total (map f v)) (all_draws (repeat n n))) = (n ^ n * total (map f (seq 0 n)))%nat.
Proof.
  intros f n. destruct n as [|n]; [reflexivity|]. pose proof (total_draws f (S n) (S n)) as H.
  rewrite <- Nat.mul_assoc in H. apply Nat.mul_cancel_l in H; auto.
Qed.

(** Every sample is in one thread. *)
Lemma thread_totals : forall r labs tmm (p : Z * list Z -> bool), consistent r labs tmm ->
    total (map (fun k => length (filter p (samples_of_thread r labs (Z.of_nat k)))) (seq 0 (length tmm))) =
    length (filter p (combine (logl r) (theta r))).
Proof.
  intros r labs tmm p (_ & _ & Hv). destruct Hv as (_ & Hll & Hlt & _ & _ & Hlab & _). rewrite map_length in Hlab.
  unfold samples_of_thread.
  assert (Hls : length labs = length (combine (logl r) (theta r))) by (rewrite combine_length; lia).
  assert (Hr : forall x, In x labs -> 0 <= x < Z.of_nat (length tmm)) by (intros; apply Hlab; auto).
  clear Hlab Hll Hlt. revert Hls Hr. generalize (combine (logl r) (theta r)) as ss. generalize labs as ls.
  induction ls as [|x ls IH]; intros [|s ss] Hl Hr; try discriminate.
  - cbn [combine filter map length]. rewrite total_map_const. lia.
  - injection Hl as Hl. cbn [combine filter].
    rewrite (map_ext_in _ (fun k => ((if Nat.eqb k (Z.to_nat x) then (if p s then 1 else 0) else 0)
                                  + length (filter p (map snd (filter (fun q => (fst q =? Z.of_nat k)%Z) (combine ls ss)))))%nat)).
    + rewrite total_map_add, (IH ss) by (auto; intros; apply Hr; right; auto).
      assert (H1 : total (map (fun k => if Nat.eqb k (Z.to_nat x) then (if p s then 1 else 0)%nat else 0%nat) (seq 0 (length tmm)))
                   = if p s then 1%nat else 0%nat).
      { specialize (Hr x (or_introl eq_refl)). assert (Hx : (Z.to_nat x < length tmm)%nat) by lia.
        replace (length tmm) with (Z.to_nat x + S (length tmm - S (Z.to_nat x)))%nat by lia.
        rewrite seq_app, map_app, total_app. cbn [seq map Nat.add]. rewrite Nat.eqb_refl, total_cons.
        rewrite !total_zero; [destruct (p s); lia| |];
          intros k Hk; apply in_seq in Hk; destruct (Nat.eqb_spec k (Z.to_nat x)); auto; lia. }
      rewrite H1. destruct (p s); cbn [length]; lia.
    + intros k Hk. apply in_seq in Hk. specialize (Hr x (or_introl eq_refl)). cbn [fst].
      destruct (Nat.eqb_spec k (Z.to_nat x)) as [->|Hne].
      * rewrite Z2Nat.id by lia. rewrite Z.eqb_refl. cbn [map snd filter]. destruct (p s); cbn [length]; lia.
      * destruct (Z.eqb_spec x (Z.of_nat k)); [lia|]. lia.
Qed.
Lemma filter_flat_map : forall A B (p : B -> bool) (f : A -> list B) l,
    length (filter p (flat_map f l)) = total (map (fun a => length (filter p (f a))) l).
Proof. induction l; auto. cbn [flat_map map]. rewrite filter_app, app_length, total_cons, IHl. auto. Qed.
Lemma filter_perm_length : forall A (p : A -> bool) a b, Permutation a b -> length (filter p a) = length (filter p b).
Proof. intros A p a b H. induction H; cbn; try lia; try (destruct (p x)); try (destruct (p y)); cbn; lia. Qed.

Lemma tape_draws : forall n draws rest log, (forall d, In d draws -> (d < n)%nat) ->
    draw_seq tape_env n (length draws) (draws ++ rest, log) = (draws, (rest, log ++ repeat n (length draws))).
Proof.
  induction draws as [|d draws IH]; intros rest log H.
  - cbn. rewrite app_nil_r. auto.
  - cbn [length draw_seq app repeat]. cbn [r_below tape_env]. unfold tape_below. cbn [fst snd].
    rewrite IH by (intros; apply H; right; auto). rewrite Nat.mod_small by (apply H; left; auto).
    rewrite <- app_assoc. auto.
Qed.

(** The samples of the [n ^ n] resamples of a static run, which with fair draws
    have equal probability, are together [n ^ n] times those of the run: on
    average a resample has each sample once. *)
Theorem C90_resample_mean : forall r labs tmm ws all, consistent r labs tmm ->
    (forall m e, ~ In (Fin m, e) tmm) ->
    (forall i j, (i < j < length (logl r))%nat -> nth i labs 0 = nth j labs 0 ->
                 nth i (logl r) 0 < nth j (logl r) 0) ->
    let n := length tmm in
    NoDup all -> (forall draws, In draws all <-> length draws = n /\ forall d, In d draws -> (d < n)%nat) ->
    exists rrs, Forall2 (fun draws rr => bootstrap_resample_run r None false BKeep (tape draws ws) =
                                         (Ok rr, tape_end (repeat n n) ws)) all rrs /\
      length all = (n ^ n)%nat /\
      forall p, list_sum (map (fun rr => length (filter p (combine (logl rr) (theta rr)))) rrs) =
                (n ^ n * length (filter p (combine (logl r) (theta r))))%nat.
Proof.
  intros r labs tmm ws all Hc Hst Hinc n Hn Hall.
  assert (Hp : Permutation all (all_draws (repeat n n))).
  { apply NoDup_Permutation; auto; [apply all_draws_NoDup|]. intros v. rewrite Hall, in_all_draws. split.
    - intros (Hl & Hd). rewrite <- Hl at 2. clear - Hd. generalize dependent n. clear. intros n Hd.
      induction v as [|y v IHv]; [constructor|]. cbn [length repeat]. constructor; [apply Hd; left; auto|].
      apply IHv. intros; apply Hd; right; auto.
    - intros H. split.
      + rewrite <- (repeat_length n n). clear - H. induction H; cbn [length]; auto.
      + intros d Hd. clear - H Hd. remember (repeat n n) as ks. assert (Hk : forall k, In k ks -> k = n) by (subst; intros; eapply repeat_spec; eauto).
        clear Heqks. induction H; [destruct Hd|]. destruct Hd as [<-|Hd]; [rewrite <- (Hk y) by (left; auto); auto|].
        apply IHForall2; auto. intros; apply Hk; right; auto. }
  assert (Hrun : forall draws, In draws all -> exists rr,
      bootstrap_resample_run r None false BKeep (tape draws ws) = (Ok rr, tape_end (repeat n n) ws) /\
      Permutation (combine (logl rr) (theta rr)) (flat_map (fun i => samples_of_thread r labs (Z.of_nat i)) draws)).
  { intros draws Hd. apply Hall in Hd as (Hl & Hd).
    destruct (C25_bootstrap_static tape_env r labs tmm BKeep (tape draws ws) I Hc Hst Hinc) as (_ & _ & rr & H1 & H2 & _).
    cbn [w_rng w_warn seeded_state tape] in H1, H2. fold n in H1, H2.
    pose proof (tape_draws n draws [] [] Hd) as Ht. rewrite app_nil_r, Hl in Ht. cbn [app] in Ht.
    unfold tape_env in Ht, H1, H2. cbn [rst] in H1, H2. rewrite Ht in H1, H2. exists rr. split; [exact H1|exact H2]. }
  assert (G : forall l, (forall v, In v l -> In v all) -> exists rrs,
     Forall2 (fun draws rr => bootstrap_resample_run r None false BKeep (tape draws ws) = (Ok rr, tape_end (repeat n n) ws)) l rrs /\
     Forall2 (fun draws rr => Permutation (combine (logl rr) (theta rr)) (flat_map (fun i => samples_of_thread r labs (Z.of_nat i)) draws)) l rrs).
  { induction l as [|v l IHl]; intros Hi; [exists []; split; constructor|].
    destruct (Hrun v (Hi v (or_introl eq_refl))) as (rr & A & B). destruct IHl as (rrs & C & D); [intros; apply Hi; right; auto|].
    exists (rr :: rrs). split; constructor; auto. }
  destruct (G all) as (rrs & H1 & H2); auto. exists rrs. split; auto. split.
  { rewrite (Permutation_length Hp). apply all_draws_length. }
  intros p.
  assert (H3 : map (fun rr => length (filter p (combine (logl rr) (theta rr)))) rrs =
               map (fun v => total (map (fun k => length (filter p (samples_of_thread r labs (Z.of_nat k)))) v)) all).
  { clear - H2. induction H2; cbn [map]; auto. f_equal; auto. rewrite <- filter_flat_map. apply filter_perm_length. auto. }
  rewrite H3, (total_perm _ _ (Permutation_map _ Hp)), total_draws_n. f_equal. exact (thread_totals r labs tmm p Hc).
Qed.
Print Assumptions C90_resample_mean.

(** Two threads: four resamples. *)
Example C90_example : exists all : list (list nat), NoDup all /\
    (forall draws, In draws all <-> length draws = 2%nat /\ forall d, In d draws -> (d < 2)%nat) /\
    consistent run_other [1; 0; 1] [(NInf, 4); (NInf, 8)] /\
    map (fun d => match fst (bootstrap_resample_run run_other None false BKeep (tape d [])) with Ok rr => logl rr | _ => [] end)
        [[0; 0]; [0; 1]; [1; 0]; [1; 1]]%nat = [[4; 4]; [2; 4; 8]; [2; 4; 8]; [2; 2; 8; 8]].
Proof.
  exists (all_draws [2; 2]%nat). split; [apply all_draws_NoDup|]. split; [|split; [apply C25_example|vm_compute; reflexivity]].
  intros v. rewrite in_all_draws. split.
  - intros H. inversion H; subst. inversion H4; subst. inversion H6; subst. split; auto.
    intros d [<-|[<-|[]]]; auto.
  - intros (Hl & Hd). destruct v as [|a [|b [|c v]]]; try discriminate. 
    constructor; [apply Hd; cbn; auto|]. constructor; [apply Hd; cbn; auto|constructor].
Qed.
