(** C99: in which order, and in how many steps, runs and samples are combined. *)
From Verif Require Import Base ModelRun ModelData Envs ProofBase ProofMonad Spec SpecRun
     ProofRun ProofJoin ProofProcess ProofDead PropCombine PropJoin.

(** ** What is claimed *)

(** A run which can be combined: as documented, with distinct log-likelihoods,
    and no thread starting on its lowest point. *)
Definition joinable (r : run) : Prop :=
  settings r = None /\
  exists labs tmm, complete_run r labs tmm /\ above_some tmm (logl r).

(** ** Proofs *)
Definition out_of (runs : list run) : outdict :=
  mkOut (option_map ONum (sum_output o_nlike runs)) (option_map ONum (sum_output o_ndead runs)) None [].
Lemma combine_output : forall E runs da dw (w : world E) r w', (2 <= length runs)%nat ->
    combine_ns_runs runs da dw w = (Ok r, w') -> output r = Some (out_of runs).
Proof.
  intros E runs da dw w r w' Hl H. destruct runs as [|r1 [|r2 t]]; cbn [length] in Hl; try lia.
  cbn [combine_ns_runs] in H. winv. reflexivity.
Qed.

(** Triples for a list of joinable runs. *)
Lemma triples : forall runs, (forall r, In r runs -> joinable r) ->
    exists ts : list (run * list Z * list (ext * Z)), map (fun '(r, _, _) => r) ts = runs /\
      (forall r labs tmm, In (r, labs, tmm) ts -> complete_run r labs tmm /\ settings r = None /\ above_some tmm (logl r)).
Proof.
  induction runs as [|r t IH]; intros H.
  - exists []. split; auto. intros r labs tmm [].
  - destruct IH as (ts & H1 & H2); [intros; apply H; right; auto|].
    destruct (H r (or_introl eq_refl)) as (H3 & labs & tmm & H4 & H5).
    exists ((r, labs, tmm) :: ts). split; [cbn; f_equal; auto|].
    intros r0 l0 t0 [Hi|Hi]; [injection Hi as <- <- <-; auto|auto].
Qed.
Lemma triples_logl : forall ts : list (run * list Z * list (ext * Z)),
    flat_map (fun '(r, _, _) => logl r) ts = flat_map logl (map (fun '(r, _, _) => r) ts).
Proof. induction ts as [|[[r l] t] ts IH]; auto. cbn. rewrite IH. auto. Qed.
Lemma triples_above : forall ts : list (run * list Z * list (ext * Z)),
    (forall r labs tmm, In (r, labs, tmm) ts -> complete_run r labs tmm /\ settings r = None /\ above_some tmm (logl r)) ->
    above_some (flat_map snd ts) (flat_map (fun '(r, _, _) => logl r) ts).
Proof.
  intros ts H m e Hi. apply in_flat_map in Hi as ([[r l] t] & Hin & Hm). cbn [snd] in Hm.
  destruct (H r l t Hin) as (_ & _ & Ha). destruct (Ha m e Hm) as (x & Hx & Hlt). exists x. split; auto.
  apply in_flat_map. exists (r, l, t). auto.
Qed.
Lemma complete_lengths : forall r labs tmm, complete_run r labs tmm ->
    length labs = length (logl r) /\ length (theta r) = length (logl r) /\
    length (nlive_array r) = length (logl r) /\ StronglySorted Z.le (logl r) /\ NoDup (logl r).
Proof.
  intros r labs tmm ((_ & _ & Hc) & Hn & _). unfold valid_columns in Hc. intuition.
Qed.
Lemma combine_fst : forall A B (l : list A) (m : list B), length m = length l -> map fst (combine l m) = l.
Proof. induction l as [|x t IH]; intros [|y m] H; try discriminate; auto. cbn. f_equal. apply IH. auto. Qed.
Lemma combine_snd : forall A B (l : list A) (m : list B), length m = length l -> map snd (combine l m) = m.
Proof. induction l as [|x t IH]; intros [|y m] H; try discriminate; auto. cbn. f_equal. apply IH. auto. Qed.
Lemma live_perm : forall a b x, Permutation a b -> live_at a x = live_at b x.
Proof.
  intros a b x H. unfold live_at. induction H; auto.
  - cbn [filter]. destruct (covers x x0); cbn [length]; auto.
  - cbn [filter]. destruct (covers x x0), (covers x y); auto.
  - congruence.
Qed.
Lemma nlive_same : forall r1 l1 t1 r2 l2 t2, complete_run r1 l1 t1 -> complete_run r2 l2 t2 ->
    logl r1 = logl r2 -> Permutation t1 t2 -> nlive_array r1 = nlive_array r2.
Proof.
  intros r1 l1 t1 r2 l2 t2 H1 H2 Hl Ht.
  destruct (complete_lengths _ _ _ H1) as (_ & _ & A1 & _). destruct (complete_lengths _ _ _ H2) as (_ & _ & A2 & _).
  apply nth_ext with (d := 0) (d' := 0); [congruence|]. intros i Hi.
  destruct H1 as (_ & _ & _ & _ & H1). destruct H2 as (_ & _ & _ & _ & H2).
  rewrite H1, H2 by congruence. rewrite Hl. f_equal. apply live_perm. auto.
Qed.

Lemma sorted_rows_same : forall E s s', Permutation s s' -> NoDup (map s_logl s) ->
    sort_samps E s = sort_samps E s'.
Proof.
  intros E s s' Hp Hn. apply key_sorted_perm_eq.
  - eapply Permutation_NoDup; [|exact Hn]. apply Permutation_map. symmetry. apply sort_samps_perm.
  - apply sort_samps_sorted.
  - apply sort_samps_sorted.
  - rewrite !sort_samps_perm. auto.
Qed.

Lemma merged_logl : forall ts t, (forall r labs tmm, In (r, labs, tmm) ts -> complete_run r labs tmm) ->
    map fst (merged t ts) = flat_map (fun '(r, _, _) => logl r) ts.
Proof.
  induction ts as [|[[r l] m] ts IH]; intros t H; auto. cbn [merged flat_map].
  rewrite map_app, IH by (intros; eapply H; right; eauto). f_equal.
  destruct (complete_lengths _ _ _ (H r l m (or_introl eq_refl))) as (H1 & H2 & _).
  unfold samples_of. rewrite map_map. transitivity (map fst (combine (logl r) (combine l (theta r)))).
  - apply map_ext. intros [x [y z]]. auto.
  - apply combine_fst. rewrite combine_length. lia.
Qed.
Lemma merged_app : forall a b t, merged t (a ++ b) = merged t a ++ merged (t + length (flat_map snd a)) b.
Proof.
  induction a as [|[[r l] m] a IH]; intros b t; cbn [merged app flat_map snd].
  - cbn. rewrite Nat.add_0_r. auto.
  - rewrite IH, app_assoc. f_equal. f_equal. rewrite app_length. lia.
Qed.
Definition up (t : nat) (p : Z * (Z * list Z)) : Z * (Z * list Z) :=
  let '(l, (k, th)) := p in (l, (Z.of_nat t + k, th)).
Lemma samples_up : forall t r labs, samples_of t r labs = map (up t) (samples_of 0 r labs).
Proof.
  intros. unfold samples_of. rewrite map_map. apply map_ext. intros [l [k th]]. cbn. auto.
Qed.
Lemma merged_up : forall ts t u, merged (t + u) ts = map (up t) (merged u ts).
Proof.
  induction ts as [|[[r l] m] ts IH]; intros t u; auto. cbn [merged]. rewrite map_app, <- IH. f_equal; [|f_equal; lia].
  rewrite (samples_up u), (samples_up (t + u)), map_map. apply map_ext. intros [x [k th]]. cbn.
  rewrite Nat2Z.inj_add, Z.add_assoc. auto.
Qed.
Lemma samples_zero : forall r labs, samples_of 0 r labs = combine (logl r) (combine labs (theta r)).
Proof.
  intros. unfold samples_of. rewrite <- map_id. apply map_ext. intros [x [k th]]. cbn. auto.
Qed.

(** Two lists of runs with the same samples and the same threads, in any order. *)
Lemma combine_columns : forall E ts1 ts2 da dw (w : world E),
    (2 <= length ts1)%nat -> (2 <= length ts2)%nat ->
    (forall r labs tmm, In (r, labs, tmm) ts1 -> complete_run r labs tmm /\ settings r = None /\ above_some tmm (logl r)) ->
    (forall r labs tmm, In (r, labs, tmm) ts2 -> complete_run r labs tmm /\ settings r = None /\ above_some tmm (logl r)) ->
    NoDup (flat_map (fun '(r, _, _) => logl r) ts1) ->
    Permutation (merged 0 ts1) (merged 0 ts2) -> flat_map snd ts1 = flat_map snd ts2 ->
    out_of (map (fun '(r, _, _) => r) ts1) = out_of (map (fun '(r, _, _) => r) ts2) ->
    exists r, combine_ns_runs (map (fun '(r, _, _) => r) ts1) da dw w = (Ok r, w) /\
              combine_ns_runs (map (fun '(r, _, _) => r) ts2) da dw w = (Ok r, w).
Proof.
  intros E ts1 ts2 da dw w L1 L2 H1 H2 Hn Hm Ht Ho.
  assert (Hn2 : NoDup (flat_map (fun '(r, _, _) => logl r) ts2)).
  { rewrite <- (merged_logl ts2 0) by (intros; apply H2; auto).
    eapply Permutation_NoDup; [apply Permutation_map; exact Hm|].
    rewrite merged_logl by (intros; apply H1; auto). auto. }
  destruct (C20_combine_ns_runs E ts1 da dw w L1) as (r1 & l1 & A1 & A2 & A3 & A4); auto.
  { intros. destruct (H1 r labs tmm); tauto. } { apply triples_above; auto. }
  destruct (C20_combine_ns_runs E ts2 da dw w L2) as (r2 & l2 & B1 & B2 & B3 & B4); auto.
  { intros. destruct (H2 r labs tmm); tauto. } { apply triples_above; auto. }
  exists r1. split; auto. rewrite B1. f_equal. f_equal.
  destruct (complete_lengths _ _ _ A2) as (A5 & A6 & A7 & A8 & A9).
  destruct (complete_lengths _ _ _ B2) as (B5 & B6 & B7 & B8 & B9).
  assert (He : combine (logl r1) (combine l1 (theta r1)) = combine (logl r2) (combine l2 (theta r2))).
  { apply triple_sorted_eq; rewrite ?combine_fst by (rewrite combine_length; lia); auto.
    rewrite A4, Hm, B4. auto. }
  assert (E1 : logl r1 = logl r2).
  { rewrite <- (combine_fst _ _ (logl r1) (combine l1 (theta r1))) by (rewrite combine_length; lia).
    rewrite He. apply combine_fst. rewrite combine_length. lia. }
  assert (E2 : combine l1 (theta r1) = combine l2 (theta r2)).
  { rewrite <- (combine_snd _ _ (logl r1) (combine l1 (theta r1))) by (rewrite combine_length; lia).
    rewrite He. apply combine_snd. rewrite combine_length. lia. }
  assert (E3 : l1 = l2).
  { rewrite <- (combine_fst _ _ l1 (theta r1)) by lia. rewrite E2. apply combine_fst. lia. }
  assert (E4 : theta r1 = theta r2).
  { rewrite <- (combine_snd _ _ l1 (theta r1)) by lia. rewrite E2. apply combine_snd. lia. }
  assert (E5 : nlive_array r1 = nlive_array r2).
  { eapply nlive_same; eauto. rewrite Ht. auto. }
  assert (E6 : output r1 = output r2).
  { rewrite (combine_output _ _ _ _ _ _ _ ltac:(rewrite map_length; exact L1) A1).
    rewrite (combine_output _ _ _ _ _ _ _ ltac:(rewrite map_length; exact L2) B1). rewrite Ho. auto. }
  destruct A2 as ((T1 & T2 & _) & _). destruct B2 as ((T3 & T4 & _) & _).
  destruct r1 as [a1 a2 a3 a4 a5 a6 a7], r2 as [b1 b2 b3 b4 b5 b6 b7]. cbn in *. congruence.
Qed.
Lemma sum_app : forall get a b, sum_output get (a ++ b) =
    match sum_output get a, sum_output get b with Some x, Some y => Some (x + y) | _, _ => None end.
Proof.
  induction a as [|r t IH]; intros b; cbn [app sum_output].
  - destruct (sum_output get b); auto.
  - destruct (output r) as [o|]; auto. rewrite IH. destruct (get o) as [v|]; auto.
    destruct (sum_output get t), (sum_output get b); auto. f_equal. lia.
Qed.
Lemma sum_group : forall E g r da dw (w : world E) w' get, (get = o_nlike \/ get = o_ndead) ->
    combine_ns_runs g da dw w = (Ok r, w') -> sum_output get [r] = sum_output get g.
Proof.
  intros E g r da dw w w' get Hg H. destruct g as [|r1 [|r2 t]]; [discriminate| |].
  - cbn [combine_ns_runs] in H. winv. auto.
  - assert (L : (2 <= length (r1 :: r2 :: t))%nat) by (cbn [length]; lia).
    pose proof (combine_output _ _ _ _ _ _ _ L H) as Ho. remember (r1 :: r2 :: t) as g.
    cbn [sum_output]. rewrite Ho. unfold out_of.
    destruct Hg as [-> | ->]; cbn [o_nlike o_ndead].
    + destruct (sum_output o_nlike g); cbn; auto. f_equal. lia.
    + destruct (sum_output o_ndead g); cbn; auto. f_equal. lia.
Qed.
Lemma sum_groups : forall E groups rs da dw get, (get = o_nlike \/ get = o_ndead) ->
    Forall2 (fun g r => exists w1 w2 : world E, combine_ns_runs g da dw w1 = (Ok r, w2)) groups rs ->
    sum_output get rs = sum_output get (concat groups).
Proof.
  intros E groups rs da dw get Hg H. induction H as [|g r gs rs (w1 & w2 & H) _ IH]; auto.
  change (r :: rs) with ([r] ++ rs). cbn [concat]. rewrite !sum_app, IH, (sum_group _ _ _ _ _ _ _ _ Hg H). auto.
Qed.

(** One combined group, as a triple. *)
Lemma group_triple : forall E g r da dw (w1 w2 : world E), g <> [] ->
    (forall r, In r g -> joinable r) -> NoDup (flat_map logl g) ->
    combine_ns_runs g da dw w1 = (Ok r, w2) ->
    exists (ts : list (run * list Z * list (ext * Z))) labs,
      map (fun '(r, _, _) => r) ts = g /\
      (forall r labs tmm, In (r, labs, tmm) ts -> complete_run r labs tmm /\ settings r = None /\ above_some tmm (logl r)) /\
      complete_run r labs (flat_map snd ts) /\ settings r = None /\ above_some (flat_map snd ts) (logl r) /\
      Permutation (samples_of 0 r labs) (merged 0 ts).
Proof.
  intros E g r da dw w1 w2 Hne Hj Hn H. destruct (triples g Hj) as (ts & T1 & T2). exists ts.
  destruct g as [|r1 [|r2 t]]; [congruence| |].
  - destruct ts as [|[[q l] m] [|y ts]]; try discriminate. cbn [map] in T1. injection T1 as ->.
    cbn [combine_ns_runs] in H. winv. destruct (T2 r l m (or_introl eq_refl)) as (A1 & A2 & A3).
    exists l. cbn [flat_map snd merged]. rewrite !app_nil_r. auto 10.
  - assert (L : (2 <= length ts)%nat) by (rewrite <- (map_length (fun '(r, _, _) => r)), T1; cbn; lia).
    destruct (C20_combine_ns_runs E ts da dw w1 L) as (q & labs & A1 & A2 & A3 & A4).
    + intros. destruct (T2 r0 labs tmm); tauto.
    + rewrite triples_logl, T1. auto.
    + apply triples_above; auto.
    + rewrite T1, H in A1. injection A1 as <- _. exists labs. split; auto. split; auto. split; auto. split; auto.
      split; [|rewrite samples_zero; auto].
      intros m e Hi. destruct (triples_above ts T2 m e Hi) as (x & Hx & Hlt). exists x. split; auto.
      rewrite <- (merged_logl ts 0) in Hx by (intros; apply T2; auto).
      apply (Permutation_in _ (Permutation_sym (Permutation_map fst A4))) in Hx.
      destruct (complete_lengths _ _ _ A2) as (B1 & B2 & _).
      rewrite combine_fst in Hx; auto. rewrite combine_length. lia.
Qed.
Lemma NoDup_app_parts : forall A (a b : list A), NoDup (a ++ b) -> NoDup a /\ NoDup b.
Proof.
  induction a as [|x a IH]; intros b H; [split; [constructor|auto]|]. inversion H; subst.
  destruct (IH b H3). split; auto. constructor; auto. intros Hi. apply H2. apply in_or_app. auto.
Qed.
Lemma group_triples : forall E groups rs da dw,
    (forall g, In g groups -> g <> []) -> (forall g r, In g groups -> In r g -> joinable r) ->
    NoDup (flat_map logl (concat groups)) ->
    Forall2 (fun g r => exists w1 w2 : world E, combine_ns_runs g da dw w1 = (Ok r, w2)) groups rs ->
    exists ts1 ts2 : list (run * list Z * list (ext * Z)),
      map (fun '(r, _, _) => r) ts1 = rs /\ map (fun '(r, _, _) => r) ts2 = concat groups /\
      (forall r labs tmm, In (r, labs, tmm) ts1 -> complete_run r labs tmm /\ settings r = None /\ above_some tmm (logl r)) /\
      (forall r labs tmm, In (r, labs, tmm) ts2 -> complete_run r labs tmm /\ settings r = None /\ above_some tmm (logl r)) /\
      flat_map snd ts1 = flat_map snd ts2 /\ forall t, Permutation (merged t ts1) (merged t ts2).
Proof.
  intros E groups rs da dw Hne Hj Hn H. induction H as [|g r gs rs (w1 & w2 & H) _ IH].
  - exists [], []. repeat split; auto; contradiction.
  - cbn [concat] in Hn. rewrite flat_map_app in Hn. apply NoDup_app_parts in Hn as [N1 N2].
    destruct IH as (ts1 & ts2 & I1 & I2 & I3 & I4 & I5 & I6); auto.
    { intros; apply Hne; right; auto. } { intros; eapply Hj; [right|]; eauto. }
    destruct (group_triple E g r da dw w1 w2) as (ts & labs & G1 & G2 & G3 & G4 & G5 & G6); auto.
    { apply Hne; left; auto. } { intros; eapply Hj; [left|]; eauto. }
    exists ((r, labs, flat_map snd ts) :: ts1), (ts ++ ts2).
    split; [cbn; f_equal; auto|]. split; [rewrite map_app, G1, I2; auto|]. split.
    { intros r0 l0 t0 [Hi|Hi]; [injection Hi as <- <- <-; auto|auto]. }
    split. { intros r0 l0 t0 Hi. apply in_app_or in Hi as [Hi|Hi]; auto. }
    split. { cbn [flat_map snd]. rewrite flat_map_app, I5. auto. }
    intros t. cbn [merged]. rewrite merged_app. apply Permutation_app; [|apply I6].
    rewrite samples_up. replace t with (t + 0)%nat at 2 by lia. rewrite merged_up. apply Permutation_map. auto.
Qed.

(** ** C99 *)

(** The rows of a samples array may be in any order. *)
Theorem C99_process_order : forall E s s' da dw (w : world E),
    Permutation s s' -> NoDup (map s_logl s) ->
    process_samples_array s da dw w = process_samples_array s' da dw w.
Proof.
  intros E s s' da dw w Hp Hn. unfold process_samples_array.
  rewrite (sorted_rows_same E s s' Hp Hn). auto.
Qed.

(** Combining runs in groups, and then the combined runs, gives the run which
    comes of combining all of them at once: samples, live points, threads,
    labels and output. *)
Theorem C99_nested : forall E groups rs da dw (w : world E),
    (2 <= length groups)%nat -> (forall g, In g groups -> g <> []) ->
    (forall g r, In g groups -> In r g -> joinable r) ->
    NoDup (flat_map logl (concat groups)) ->
    Forall2 (fun g r => exists w1 w2 : world E, combine_ns_runs g da dw w1 = (Ok r, w2)) groups rs ->
    exists r, combine_ns_runs rs da dw w = (Ok r, w) /\
              combine_ns_runs (concat groups) da dw w = (Ok r, w).
Proof.
  intros E groups rs da dw w L Hne Hj Hn H.
  destruct (group_triples E groups rs da dw Hne Hj Hn H) as (ts1 & ts2 & I1 & I2 & I3 & I4 & I5 & I6).
  assert (Lr : length rs = length groups) by (clear - H; induction H; cbn; auto).
  assert (L1 : (2 <= length ts1)%nat) by (rewrite <- (map_length (fun '(r, _, _) => r)), I1; lia).
  assert (Lc : (2 <= length (concat groups))%nat).
  { destruct groups as [|[|x g1] [|[|y g2] gs]]; cbn [length] in L; try lia.
    - exfalso; apply (Hne []); cbn; auto.
    - exfalso; apply (Hne []); cbn; auto.
    - exfalso; apply (Hne []); cbn; auto.
    - cbn [concat app length]. rewrite !app_length. cbn. rewrite app_length. lia. }
  assert (L2 : (2 <= length ts2)%nat) by (rewrite <- (map_length (fun '(r, _, _) => r)), I2; lia).
  rewrite <- I1, <- I2. apply combine_columns; auto.
  - rewrite <- (merged_logl ts1 0) by (intros; apply I3; auto).
    eapply Permutation_NoDup; [apply Permutation_map; symmetry; apply I6|].
    rewrite merged_logl by (intros; apply I4; auto). rewrite triples_logl, I2. auto.
  - rewrite I1, I2. unfold out_of. rewrite !(sum_groups E groups rs da dw) by auto. auto.
Qed.

(** The order of the runs changes the labels of threads and nothing else. *)
Theorem C99_order : forall E runs runs' da dw (w : world E),
    (2 <= length runs)%nat -> Permutation runs runs' ->
    (forall r, In r runs -> joinable r) -> NoDup (flat_map logl runs) ->
    exists r r', combine_ns_runs runs da dw w = (Ok r, w) /\
      combine_ns_runs runs' da dw w = (Ok r', w) /\
      logl r = logl r' /\ theta r = theta r' /\ nlive_array r = nlive_array r' /\
      output r = output r' /\
      exists tmm tmm', thread_min_max r = Some tmm /\ thread_min_max r' = Some tmm' /\ Permutation tmm tmm'.
Proof.
  intros E runs runs' da dw w L Hp Hj Hn.
  destruct (triples runs Hj) as (ts & T1 & T2).
  assert (Hts : exists ts', Permutation ts ts' /\ map (fun '(r, _, _) => r) ts' = runs').
  { rewrite <- T1 in Hp. destruct (Permutation_map_inv _ _ (Permutation_sym Hp)) as (ts' & H1 & H2). exists ts'. auto. }
  destruct Hts as (ts' & P & T1').
  assert (T2' : forall r labs tmm, In (r, labs, tmm) ts' -> complete_run r labs tmm /\ settings r = None /\ above_some tmm (logl r)).
  { intros. apply T2. eapply Permutation_in; [symmetry; exact P|auto]. }
  assert (Hl : length ts = length runs) by (rewrite <- T1, map_length; auto).
  assert (Hl' : length ts' = length ts) by (symmetry; apply Permutation_length; auto).
  assert (N1 : NoDup (flat_map (fun '(r, _, _) => logl r) ts)) by (rewrite triples_logl, T1; auto).
  assert (N2 : NoDup (flat_map (fun '(r, _, _) => logl r) ts')).
  { eapply Permutation_NoDup; [|exact N1]. apply Permutation_flat_map. auto. }
  destruct (C20_combine_ns_runs E ts da dw w) as (r & l & A1 & A2 & A3 & A4); auto; try lia.
  { intros. destruct (T2 r labs tmm); tauto. } { apply triples_above; auto. }
  destruct (C20_combine_ns_runs E ts' da dw w) as (r' & l' & B1 & B2 & B3 & B4); auto; try lia.
  { intros. destruct (T2' r0 labs tmm); tauto. } { apply triples_above; auto. }
  rewrite T1 in A1. rewrite T1' in B1. exists r, r'. split; auto. split; auto.
  destruct (complete_lengths _ _ _ A2) as (A5 & A6 & A7 & A8 & A9).
  destruct (complete_lengths _ _ _ B2) as (B5 & B6 & B7 & B8 & B9).
  assert (Hlen : forall ts, (forall r labs tmm, In (r, labs, tmm) ts -> complete_run r labs tmm /\ settings r = None /\ above_some tmm (logl r)) ->
            forall r lb tmm, In (r, lb, tmm) ts -> length lb = length (logl r) /\ length (theta r) = length (logl r)).
  { intros ts0 H0 r0 l0 t0 Hi. destruct (complete_lengths _ _ _ (proj1 (H0 r0 l0 t0 Hi))). tauto. }
  assert (Hd : forall (q : run) lq, length lq = length (logl q) -> length (theta q) = length (logl q) ->
            map drop_label (combine (logl q) (combine lq (theta q))) = combine (logl q) (theta q)).
  { intros q lq H1 H2. rewrite <- (combine_drop 0 (logl q) lq (theta q) H1 H2), map_map. apply map_ext. intros [x [y z]]. auto. }
  assert (He : combine (logl r) (theta r) = combine (logl r') (theta r')).
  { apply pairs_sorted_eq; rewrite ?combine_fst by lia; auto.
    rewrite <- (Hd r l), <- (Hd r' l') by lia.
    rewrite A4, B4, (merged_items ts 0 (Hlen ts T2)), (merged_items ts' 0 (Hlen ts' T2')).
    apply Permutation_flat_map. auto. }
  assert (E1 : logl r = logl r').
  { rewrite <- (combine_fst _ _ (logl r) (theta r)) by lia. rewrite He. apply combine_fst. lia. }
  assert (E2 : theta r = theta r').
  { rewrite <- (combine_snd _ _ (logl r) (theta r)) by lia. rewrite He. apply combine_snd. lia. }
  assert (Pt : Permutation (flat_map snd ts) (flat_map snd ts')) by (apply Permutation_flat_map; auto).
  split; auto. split; auto. split; [eapply nlive_same; eauto|]. split.
  - assert (Hs : forall get a b, Permutation a b -> sum_output get a = sum_output get b).
    { clear. intros get a b H. induction H; auto.
      - cbn [sum_output]. rewrite IHPermutation. auto.
      - cbn [sum_output]. destruct (output x) as [o|], (output y) as [p|]; auto.
        + destruct (get o), (get p), (sum_output get l); auto. f_equal. lia.
        + destruct (get o); auto.
        + destruct (get p); auto.
      - congruence. }
    rewrite (combine_output _ _ _ _ _ _ _ L A1).
    rewrite (combine_output _ _ _ _ _ _ _ ltac:(rewrite <- (Permutation_length Hp); exact L) B1).
    unfold out_of. rewrite !(Hs _ _ _ Hp). auto.
  - destruct A2 as ((_ & T3 & _) & _). destruct B2 as ((_ & T4 & _) & _). eauto.
Qed.

Print Assumptions C99_process_order.
Print Assumptions C99_nested.
Print Assumptions C99_order.

Lemma run_two_joinable : joinable run_two.
Proof.
  split; [reflexivity|]. exists [0; 0; 1; 0], [(NInf, 6); (Fin 3, 5)]. exact C18_example.
Qed.
Lemma run_other_joinable : joinable run_other.
Proof.
  split; [reflexivity|]. exists [1; 0; 1], [(NInf, 4); (NInf, 8)]. split; [apply run_other_complete|].
  intros m e [H|[H|[]]]; inversion H.
Qed.
Definition run_last : run :=
  mkRun [7; 9] [[70]; [90]] [1; 1] (Some [0; 0]) (Some [(NInf, 9)]) None None.
Lemma run_last_joinable : joinable run_last.
Proof.
  split; [reflexivity|]. exists [0; 0], [(NInf, 9)]. split; [|intros m e [H|[]]; inversion H].
  unfold complete_run, consistent, valid_columns, run_last.
  cbn [logl theta nlive_array thread_labels thread_min_max length map fst snd ext_opt].
  split.
  { split; [reflexivity|]. split; [reflexivity|].
    split; [reflexivity|]. split; [reflexivity|]. split; [reflexivity|].
    split; [repeat (constructor; try lia)|]. split; [reflexivity|].
    split; [simpl; intros; lia|]. split; [simpl; auto|].
    intros k Hk. split.
    - intros f m _. destruct k as [|k]; simpl; try lia; try discriminate.
    - intros l (L1 & L2 & L3). cbn [length] in L1, L3. destruct k as [|k]; try lia.
      four l; simpl in *; try lia. specialize (L3 1%nat ltac:(lia)). simpl in L3. lia. }
  split; [repeat (constructor; try (simpl; lia))|].
  split. { intros k f Hk _. destruct k as [|k]; simpl in *; try lia; auto. }
  split. { intros m e [H|[]]; inversion H. }
  intros i Hi. four i; simpl in *; try lia; reflexivity.
Qed.
Example C99_example_hypotheses :
  let groups := [[run_two]; [run_other; run_last]] in
  (forall g r, In g groups -> In r g -> joinable r) /\ NoDup (flat_map logl (concat groups)).
Proof.
  split.
  - intros g r [<-|[<-|[]]] [<-|H]; try destruct H as [<-|[]]; try contradiction.
    + apply run_two_joinable.
    + apply run_other_joinable.
    + apply run_last_joinable.
  - cbn. repeat (constructor; [cbn; lia|]). constructor.
Qed.
(** Two and then one, or all three: nine samples, five threads. *)
Example C99_example_nested :
  let w := @mkW (script_env []) [] [] in
  exists r, combine_ns_runs [run_two; run_other; run_last] false true w = (Ok r, w) /\
    (let* a := combine_ns_runs [run_other; run_last] false true in
     combine_ns_runs [run_two; a] false true) w = (Ok r, w) /\
    logl r = [1; 2; 3; 4; 5; 6; 7; 8; 9] /\ nlive_array r = [4; 4; 4; 5; 4; 3; 2; 2; 1] /\
    thread_labels r = Some [0; 3; 0; 2; 1; 0; 4; 3; 4].
Proof. vm_compute. eexists. repeat split; reflexivity. Qed.
(** In another order the labels are others. *)
Example C99_example_order :
  let w := @mkW (script_env []) [] [] in
  exists r, combine_ns_runs [run_last; run_two; run_other] false true w = (Ok r, w) /\
    nlive_array r = [4; 4; 4; 5; 4; 3; 2; 2; 1] /\
    thread_labels r = Some [1; 4; 1; 3; 2; 1; 0; 4; 0].
Proof. vm_compute. eexists. repeat split; reflexivity. Qed.

(** With equal log-likelihoods the order of the rows does count: which of two
    such points comes first, and which of them is in the thread that goes on. *)
Definition tied (swap : bool) : list samp :=
  (if swap then [mkSamp [2] 5 0; mkSamp [1] 5 0] else [mkSamp [1] 5 0; mkSamp [2] 5 0]) ++ [mkSamp [3] 6 5].
Theorem C99_process_order_refuted :
  let w := @mkW (script_env []) [] [] in
  Permutation (tied false) (tied true) /\
  exists r r' w' w'',
    process_samples_array (tied false) false true w = (Ok r, w') /\
    process_samples_array (tied true) false true w = (Ok r', w'') /\
    logl r = logl r' /\ thread_labels r = thread_labels r' /\ theta r <> theta r'.
Proof.
  split; [unfold tied; cbn; apply perm_swap|]. vm_compute. do 4 eexists.
  split; [reflexivity|]. split; [reflexivity|]. repeat split. discriminate.
Qed.
Print Assumptions C99_process_order_refuted.
