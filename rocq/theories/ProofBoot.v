(** Bootstrap resampling (C25 - C28). *)
From Verif Require Import Base ModelRun ModelData ModelBoot ProofBase ProofMonad ProofDet Spec SpecRun
     ProofThreads ProofBirth ProofRun ProofProcess ProofDict ProofComb ProofRuns ProofJoin ProofTies.

(** ** The threads of a run *)
Lemma take_where_gen : forall A (d : A) (p : Z -> bool) labs xs pre, length labs = length xs ->
    map (fun i => nth i (pre ++ xs) d) (where_from p (length pre) labs) =
    map snd (filter (fun q => p (fst q)) (combine labs xs)).
Proof.
  induction labs as [|a t IH]; intros [|x xs] pre H; simpl in *; try lia; auto.
  specialize (IH xs (pre ++ [x]) ltac:(lia)). rewrite app_length in IH. simpl in IH.
  rewrite Nat.add_1_r, <- app_assoc in IH. simpl in IH.
  destruct (p a); simpl; rewrite IH; auto.
  f_equal. rewrite app_nth2, Nat.sub_diag by lia. auto.
Qed.
Lemma take_where : forall A (d : A) (p : Z -> bool) labs xs, length labs = length xs ->
    take d xs (where_ p labs) = map snd (filter (fun q => p (fst q)) (combine labs xs)).
Proof. intros. apply (take_where_gen A d p labs xs []). auto. Qed.

Lemma combine_take : forall A B (a : A) (b : B) xs ys idx, length xs = length ys ->
    combine (take a xs idx) (take b ys idx) = take (a, b) (combine xs ys) idx.
Proof.
  induction idx as [|i t IH]; intros H; auto. unfold take in *. simpl. rewrite IH by auto.
  rewrite combine_nth by auto. auto.
Qed.

Lemma nth_thread_samples : forall r labs tmm k mm, consistent r labs tmm ->
    combine (logl (nth_thread r labs k mm)) (theta (nth_thread r labs k mm)) = samples_of_thread r labs k.
Proof.
  intros r labs tmm k mm (Hl & Ht & V1 & V2 & V3 & _).
  unfold nth_thread, samples_of_thread. cbn [logl theta].
  rewrite combine_take by auto. unfold thread_inds. rewrite take_where.
  - f_equal. apply filter_ext. intros q. apply Z.eqb_sym.
  - rewrite combine_length. lia.
Qed.

(** ** Draws *)
Lemma randint_pos_ok : forall E lo hi n (w : world E), (lo < hi)%nat ->
    exists l w', randint_pos lo hi n w = (Ok l, w') /\ length l = n /\
                 (forall i, In i l -> (lo <= i < hi)%nat) /\ w_warn w' = w_warn w.
Proof.
  induction n as [|n IH]; intros w H; [exists [], w; split; [auto|split; [auto|split; [intros i []|auto]]]|].
  cbn [randint_pos]. unfold wbind at 1, below.
  pose proof (r_below_ok E (hi - lo) (w_rng w) ltac:(lia)) as Hb.
  destruct (r_below E (hi - lo) (w_rng w)) as [k s]. simpl in Hb.
  destruct (IH (mkW s (w_warn w)) H) as (l & w' & H1 & H2 & H3 & H4).
  rewrite (wbind_run _ _ _ _ _ _ _ _ H1). exists ((lo + k)%nat :: l), w'.
  split; auto. split; [simpl; lia|]. split; [|auto].
  intros i [<-|Hi]; [lia|auto].
Qed.
Lemma randint_ok : forall E lo hi n (w : world E), (lo < hi)%nat \/ n = 0%nat ->
    exists l w', randint lo hi n w = (Ok l, w') /\ length l = n /\
                 (forall i, In i l -> (lo <= i < hi)%nat) /\ w_warn w' = w_warn w.
Proof.
  intros E lo hi n w H. unfold randint. destruct n as [|n].
  - exists [], w. split; [auto|split; [auto|split; [intros i []|auto]]].
  - destruct H as [H|H]; [|lia]. replace (lo <? hi)%nat with true by (symmetry; apply Nat.ltb_lt; auto).
    apply randint_pos_ok; auto.
Qed.
Lemma randint_pos_draws : forall E lo hi n (w : world E),
    randint_pos lo hi n w = (Ok (map (Nat.add lo) (fst (draw_seq E (hi - lo) n (w_rng w)))),
                             mkW (snd (draw_seq E (hi - lo) n (w_rng w))) (w_warn w)).
Proof.
  intros E lo hi. induction n as [|n IH]; intros w; [simpl; rewrite world_eta; auto|].
  cbn [randint_pos draw_seq]. unfold wbind at 1, below.
  destruct (r_below E (hi - lo) (w_rng w)) as [k s].
  rewrite (wbind_run _ _ _ _ _ _ _ _ (IH (mkW s (w_warn w)))). cbn [w_rng w_warn].
  destruct (draw_seq E (hi - lo) n s) as [xs s2]. auto.
Qed.
Lemma randint_draws : forall E lo hi n (w : world E), (lo < hi)%nat \/ n = 0%nat ->
    randint lo hi n w = (Ok (map (Nat.add lo) (fst (draw_seq E (hi - lo) n (w_rng w)))),
                         mkW (snd (draw_seq E (hi - lo) n (w_rng w))) (w_warn w)).
Proof.
  intros E lo hi n w H. unfold randint. destruct n as [|n]; [simpl; rewrite world_eta; auto|].
  destruct H as [H|H]; [|lia]. replace (lo <? hi)%nat with true by (symmetry; apply Nat.ltb_lt; auto).
  apply randint_pos_draws.
Qed.
Lemma randint_draws_inv : forall E lo hi n (w : world E) l w', randint lo hi n w = (Ok l, w') ->
    l = map (Nat.add lo) (fst (draw_seq E (hi - lo) n (w_rng w))) /\
    w' = mkW (snd (draw_seq E (hi - lo) n (w_rng w))) (w_warn w).
Proof.
  intros E lo hi n w l w' H.
  assert (Hc : (lo < hi)%nat \/ n = 0%nat).
  { unfold randint in H. destruct n; auto. destruct (lo <? hi)%nat eqn:Hl; [|discriminate].
    apply Nat.ltb_lt in Hl. auto. }
  rewrite randint_draws in H by auto. inversion H. auto.
Qed.
Lemma draws_length : forall E n k s, length (fst (draw_seq E n k s)) = k.
Proof.
  induction k as [|k IH]; intros s; auto. cbn [draw_seq]. destruct (r_below E n s) as [x s1].
  specialize (IH s1). destruct (draw_seq E n k s1). simpl in *. auto.
Qed.
Lemma draws_lt : forall E n k s x, (0 < n)%nat -> In x (fst (draw_seq E n k s)) -> (x < n)%nat.
Proof.
  induction k as [|k IH]; intros s x Hn; [intros []|]. cbn [draw_seq].
  pose proof (r_below_ok E n s Hn) as Hb. destruct (r_below E n s) as [y s1]. specialize (IH s1 x Hn).
  destruct (draw_seq E n k s1). simpl in *. intros [<-|H]; auto.
Qed.
Lemma apply_seed_state : forall E (b : bseed E) (w : world E), accepted_seed b ->
    apply_seed b w = (Ok tt, mkW (seeded_state b (w_rng w)) (w_warn w)).
Proof.
  intros E b w H. destruct b as [|z|s]; [simpl; rewrite world_eta; auto| |auto].
  unfold apply_seed, seed. rewrite (proj2 (good_seed_iff z)) by exact H. auto.
Qed.
Lemma apply_seed_bad : forall E (b : bseed E) (w : world E), ~ accepted_seed b -> apply_seed b w = (Raise ValueError, w).
Proof.
  intros E b w H. destruct b as [|z|s]; try (exfalso; apply H; exact I).
  unfold apply_seed, seed. destruct (good_seed z) eqn:He; auto. apply good_seed_iff in He. contradiction.
Qed.
Lemma accepted_seed_dec : forall E (b : bseed E), accepted_seed b \/ ~ accepted_seed b.
Proof. intros E [|z|s]; cbn [accepted_seed]; auto. lia. Qed.
Lemma apply_seed_inv : forall E (b : bseed E) (w : world E) u w', apply_seed b w = (Ok u, w') ->
    accepted_seed b /\ w' = mkW (seeded_state b (w_rng w)) (w_warn w).
Proof.
  intros E b w u w' H. destruct (accepted_seed_dec E b) as [Ha|Ha].
  - rewrite apply_seed_state in H by auto. inversion H. auto.
  - rewrite apply_seed_bad in H by auto. discriminate.
Qed.
Lemma map_add_0 : forall l, map (Nat.add 0) l = l.
Proof. intros. rewrite map_ext with (g := fun x => x) by auto. apply map_id. Qed.

Lemma randint_inv : forall E lo hi n (w : world E) l w', randint lo hi n w = (Ok l, w') ->
    length l = n /\ forall i, In i l -> (lo <= i < hi)%nat.
Proof.
  intros E lo hi n w l w' H. destruct n as [|n].
  - inversion H; subst. split; auto. intros i [].
  - destruct (Nat.lt_ge_cases lo hi) as [Hlt|Hge].
    + destruct (randint_ok E lo hi (S n) w (or_introl Hlt)) as (l' & w1 & H1 & H2 & H3 & _).
      rewrite H in H1. inversion H1; subst. auto.
    + unfold randint in H. replace (lo <? hi)%nat with false in H by (symmetry; apply Nat.ltb_ge; auto).
      discriminate.
Qed.

Lemma get_threads : forall E (ths : list run) inds (w : world E) d,
    (forall i, In i inds -> (i < length ths)%nat) ->
    wmapM (get_thread ths) inds w = (Ok (map (fun i => nth i ths d) inds), w).
Proof.
  intros E ths inds w d H. apply wmapM_pure. intros i Hi. unfold get_thread.
  rewrite (nth_error_nth' ths d) by auto. auto.
Qed.
Lemma get_threads_inv : forall E (ths : list run) inds (w : world E) d l w',
    wmapM (get_thread ths) inds w = (Ok l, w') -> l = map (fun i => nth i ths d) inds /\ w' = w.
Proof.
  induction inds as [|i t IH]; intros w d l w' H; [inversion H; auto|].
  cbn [wmapM] in H. apply wbind_Ok in H as (y & w1 & H1 & H). apply wbind_Ok in H as (ys & w2 & H2 & H).
  unfold get_thread in H1. destruct (nth_error ths i) eqn:He; [|discriminate]. inversion H1; subst.
  apply (IH _ d) in H2 as [-> ->]. inversion H; subst. simpl. rewrite (nth_error_nth _ _ _ He). auto.
Qed.

(** ** Independence of the random state (C26) *)
Lemma uniform_dict : forall E rows tmm, uniform (E := E) (dict_given_run_array rows tmm).
Proof. intros. unfold dict_given_run_array. destruct rows; [apply uniform_raise|]. cbv zeta. unif. Qed.
Lemma uniform_get_run_threads : forall E r, uniform (E := E) (get_run_threads r).
Proof.
  intros. unfold get_run_threads. apply uniform_bind; [apply uniform_lift|intros rows].
  destruct (thread_labels r), (thread_min_max r); try apply uniform_raise.
  unif. destruct x as [lab mm]. unif. apply uniform_dict.
Qed.
Lemma uniform_add_start : forall E abp rows s, uniform (E := E) (add_start abp rows s).
Proof.
  intros. unfold add_start. apply uniform_bind; [unif|intros _].
  destruct (where_ _ rows) as [|i [|j t]]; unif.
Qed.
Lemma uniform_combine_threads : forall E ths abp, uniform (E := E) (combine_threads ths abp).
Proof.
  intros. unfold combine_threads. destruct ths; [apply uniform_raise|]. cbv zeta.
  repeat first [apply uniform_add_start | apply uniform_dict | apply uniform_lift | apply uniform_get
               | apply uniform_set | apply uniform_seed | apply uniform_assert
               | apply uniform_foldM; intros | apply uniform_bind; intros].
Qed.
Lemma uniform_randint : forall E lo hi n, uniform (E := E) (randint lo hi n).
Proof.
  intros. unfold randint. destruct n; [apply uniform_ret|].
  destruct (lo <? hi)%nat; [|apply uniform_raise]. generalize (S n). clear n.
  induction n; cbn [randint_pos]; unif. auto.
Qed.
Lemma uniform_draw : forall E r n ns, uniform (E := E) (draw_inds r n ns).
Proof.
  intros. unfold draw_inds. destruct ns; [|apply uniform_randint].
  destruct (settings r) as [[k|]|].
  - destruct (thread_min_max r); [|apply uniform_raise]. unif; apply uniform_randint.
  - unif. apply uniform_randint.
  - unif. apply uniform_randint.
Qed.
Lemma uniform_get_threads : forall E ths inds, uniform (E := E) (wmapM (get_thread ths) inds).
Proof.
  intros. apply uniform_mapM. intros i. unfold get_thread. destruct (nth_error ths i); unif.
Qed.

(** Everything between the seeding and the restoring. *)
Definition boot_body {E} (r : run) (threads : option (list run)) (ns : bool) : W E run :=
  let* ths := match threads with Some l => wret l | None => get_run_threads r end in
  let* inds := draw_inds r (length ths) ns in
  let* drawn := wmapM (get_thread ths) inds in
  let* res := combine_threads drawn false in
  wret (with_settings res (settings r)).

Lemma uniform_body : forall E r ths ns, uniform (E := E) (boot_body r ths ns).
Proof.
  intros. unfold boot_body. apply uniform_bind; [destruct ths; [apply uniform_ret|apply uniform_get_run_threads]|].
  intros l. apply uniform_bind; [apply uniform_draw|]. intros inds.
  apply uniform_bind; [apply uniform_get_threads|]. intros drawn.
  apply uniform_bind; [apply uniform_combine_threads|]. intros res. apply uniform_ret.
Qed.

Lemma boot_form : forall E r ths ns b (w : world E),
    bootstrap_resample_run r ths ns b w =
    (let* st := get_state in let* _ := apply_seed b in let* res := boot_body r ths ns in
     let* _ := if seeded b then set_state st else wret tt in wret res) w.
Proof.
  intros. unfold bootstrap_resample_run, boot_body, wbind at 1 8, get_state.
  unfold wbind at 1 7. destruct (apply_seed b w) as [[u|e] w1]; auto.
  unfold wbind.
  destruct (match ths with Some l => wret l | None => get_run_threads r end w1) as [[l|e] w2]; auto.
  destruct (draw_inds r (length l) ns w2) as [[i|e] w3]; auto.
  destruct (wmapM (get_thread l) i w3) as [[d|e] w4]; auto.
  destruct (combine_threads d false w4) as [[c|e] w5]; auto.
Qed.

Lemma det_boot : forall E r ths ns b, seeded b = true -> det (E := E) (bootstrap_resample_run r ths ns b).
Proof.
  intros E r ths ns b Hb. destruct (accepted_seed_dec E b) as [Hacc|Hacc].
  2:{ exists (Raise ValueError), [], (fun s => s). split; [|left; auto]. intros w. rewrite boot_form.
      unfold wbind, get_state. rewrite apply_seed_bad by auto. destruct w. auto. }
  assert (Hs : exists s, forall w : world E, apply_seed b w = (Ok tt, mkW s (w_warn w))).
  { destruct b as [|z|s]; [discriminate|exists (r_seed E z)|exists s]; intros w; apply (apply_seed_state E _ w Hacc). }
  destruct Hs as [s Hs]. destruct (uniform_body E r ths ns s) as (res & s' & ds & H).
  destruct res as [a|e].
  - exists (Ok a), ds, (fun x => x). split; auto.
    intros w. rewrite boot_form, Hb. unfold wbind, get_state, set_state. rewrite Hs, H. auto.
  - exists (Raise e), ds, (fun _ => s'). split; [|right; eauto].
    intros w. rewrite boot_form, Hb. unfold wbind, get_state, set_state. rewrite Hs, H. auto.
Qed.

Lemma det_get_run_threads : forall E r, det (E := E) (get_run_threads r).
Proof.
  intros. unfold get_run_threads. apply det_bind; [apply det_lift|intros rows].
  destruct (thread_labels r), (thread_min_max r); try apply det_raise.
  apply det_bind; [apply det_assert|intros _]. apply det_mapM. intros [lab mm].
  apply det_bind; [apply det_assert|intros _]. unfold dict_given_run_array.
  destruct (thread_dn _); detm.
Qed.

Lemma det_mapM_in : forall E A B (f : A -> W E B) l,
    (forall x, In x l -> det (f x)) -> det (wmapM f l).
Proof.
  induction l as [|x t IH]; intros H; simpl; [apply det_ret|].
  apply det_bind; [apply H; left; auto|]. intros y.
  apply det_bind; [apply IH; intros; apply H; right; auto|]. intros; apply det_ret.
Qed.

Lemma det_columns : forall E A (est : run -> res A) r ns n seeds,
    (forall b, In b seeds -> seeded b = true) ->
    det (E := E) (bootstrap_columns est r ns n seeds).
Proof.
  intros. unfold bootstrap_columns. apply det_bind; [apply det_assert|intros _].
  apply det_bind; [apply det_get_run_threads|intros ths]. apply det_mapM_in.
  intros b Hb. apply det_bind; [apply det_boot; auto|]. intros. apply det_lift.
Qed.

(** ** The resample of a run all of whose threads start from the whole prior *)
Lemma static_starts : forall tmm, (forall m e, ~ In (Fin m, e) tmm) -> finite_starts tmm = [].
Proof.
  induction tmm as [|[[|z] e] t IH]; intros H; simpl; auto.
  - apply IH. intros m e' Hin. apply (H m e'). right; auto.
  - exfalso. apply (H z e). left; auto.
Qed.

Section Static.
Variables (r : run) (labs : list Z) (tmm : list (ext * Z)).
Hypothesis Hcon : consistent r labs tmm.
Hypothesis Hstat : forall m e, ~ In (Fin m, e) tmm.
Hypothesis Hinc : forall i j, (i < j < length (logl r))%nat -> nth i labs 0 = nth j labs 0 ->
                              nth i (logl r) 0 < nth j (logl r) 0.

Let ths := map (fun k => nth_thread r labs (Z.of_nat k) (nth k tmm (NInf, 0))) (seq 0 (length tmm)).
Let dth := nth_thread r labs 0 (NInf, 0).
Let spec k : run * (Z * (ext * Z)) :=
  (nth_thread r labs (Z.of_nat k) (tm tmm k), (Z.of_nat k, tm tmm k)).

Lemma static_ok : forall k, (k < length tmm)%nat -> ts_ok (spec k).
Proof.
  intros k Hk. apply nth_thread_ok; auto. intros k' f Hk' _.
  destruct (nth k' tmm (NInf, 0)) as [[|z] e] eqn:He; auto.
  exfalso. apply (Hstat z e). rewrite <- He. apply nth_In; auto.
Qed.
Lemma static_strict : forall k, (k < length tmm)%nat -> StronglySorted Z.lt (logl (fst (spec k))).
Proof.
  intros k Hk. unfold spec. cbn [fst]. unfold nth_thread. cbn [logl].
  apply ssorted_map. apply (ssorted_weaken _ lt).
  - intros x y Hx Hy Hxy. apply where_label in Hx as [X1 X2]. apply where_label in Hy as [Y1 Y2].
    apply Hinc; [|congruence]. destruct Hcon as (_ & _ & _ & V2 & _). lia.
  - apply where_sorted.
Qed.

Lemma drawn_specs : forall inds, (forall i, In i inds -> (i < length tmm)%nat) ->
    map (fun i => nth i ths dth) inds = map fst (map spec inds) /\
    ts_tmm (map spec inds) = map (fun i => nth i tmm (NInf, 0)) inds.
Proof.
  intros inds H. split.
  - rewrite map_map. apply map_ext_in. intros i Hi. unfold ths. rewrite nth_map_seq by auto. auto.
  - unfold ts_tmm. rewrite map_map. auto.
Qed.

Theorem combine_drawn : forall E inds (w : world E), inds <> [] ->
    (forall i, In i inds -> (i < length tmm)%nat) ->
    exists rr, combine_threads (map (fun i => nth i ths dth) inds) false w = (Ok rr, w) /\
      length (nlive_array rr) = length (logl rr) /\ output rr = None /\ settings rr = None /\
      Permutation (combine (logl rr) (theta rr))
                  (flat_map (fun i => samples_of_thread r labs (Z.of_nat i)) inds) /\
      StronglySorted Z.le (logl rr) /\ length (theta rr) = length (logl rr) /\
      (forall i, (i < length (logl rr))%nat ->
         (forall j, (j < i)%nat -> nth j (logl rr) 0 < nth i (logl rr) 0) ->
         nth i (nlive_array rr) 0 =
         Z.of_nat (length (filter (fun k => nth i (logl rr) 0 <=? snd (nth k tmm (NInf, 0))) inds))) /\
      (forall i, (S i < length (logl rr))%nat -> nth (S i) (nlive_array rr) 0 <= nth i (nlive_array rr) 0) /\
      (forall x, In x (nlive_array rr) -> 1 <= x) /\ last (nlive_array rr) 0 = 1.
Proof.
  intros E inds w Hne Hlt. destruct (drawn_specs inds Hlt) as [D1 D2].
  assert (Hns : forall m e, ~ In (Fin m, e) (ts_tmm (map spec inds))).
  { rewrite D2. intros m e Hin. apply in_map_iff in Hin as [k [K1 K2]]. apply (Hstat m e).
    rewrite <- K1. apply nth_In. auto. }
  destruct (join_ties E (map spec inds) w) as (rr & J1 & J2 & J3 & J4 & J5 & J6).
  - intros H. apply map_eq_nil in H. auto.
  - intros x Hx. apply in_map_iff in Hx as [k [<- Hk]]. apply static_ok. auto.
  - intros x Hx. apply in_map_iff in Hx as [k [<- Hk]]. apply static_strict. auto.
  - intros m e Hin. exfalso. eapply Hns; eauto.
  - intros m e Hin. exfalso. eapply Hns; eauto.
  - exists rr. rewrite D1. split; auto. split; auto. split; auto. split; auto.
    destruct (combine_threads_samples E _ _ _ _ _ J1) as (S1 & S2 & S3 & _).
    split.
    { rewrite S1, map_map. apply Permutation_refl'.
      clear - Hcon. induction inds as [|i t IH]; auto.
      cbn [map flat_map]. f_equal; [|exact IH]. eapply nth_thread_samples; eauto. }
    split; auto. split; auto. split.
    { intros i Hi Hf. rewrite (J5 i Hi Hf). f_equal. unfold live_at. rewrite D2.
      clear - Hstat Hlt. induction inds as [|k t IH]; auto. cbn [map filter].
      assert (Hk : covers (nth i (logl rr) 0) (nth k tmm (NInf, 0)) =
                   (nth i (logl rr) 0 <=? snd (nth k tmm (NInf, 0)))).
      { unfold covers. destruct (nth k tmm (NInf, 0)) as [[|z] e] eqn:He; auto.
        exfalso. apply (Hstat z e). rewrite <- He. apply nth_In. apply Hlt. left; auto. }
      rewrite Hk. specialize (IH (fun j Hj => Hlt j (or_intror Hj))).
      destruct (nth i (logl rr) 0 <=? snd (nth k tmm (NInf, 0))); cbn [length]; rewrite IH; auto. }
    split.
    { apply J6. apply static_starts. auto. }
    pose proof (dict_positive E) as Hd. revert J1. generalize (map fst (map spec inds)). intros l J1.
    unfold combine_threads in J1. destruct l as [|th t]; [discriminate|].
    apply wbind_Ok in J1 as (u1 & w1 & _ & J1). apply wbind_Ok in J1 as (u2 & w2 & _ & J1).
    apply wbind_Ok in J1 as (u3 & w3 & _ & J1). apply wbind_Ok in J1 as (u4 & w4 & _ & J1).
    apply wbind_Ok in J1 as (u5 & w5 & _ & J1). apply wbind_Ok in J1 as (u6 & w6 & _ & J1).
    apply wbind_Ok in J1 as (d & w7 & J7 & J1). apply Hd in J7 as (P1 & P2 & P3). injection J1 as J1 _.
    unfold drop_bad_threads in J1. destruct (check_ns_run_threads d) as [|[]]; inversion J1; subst; auto.
Qed.
End Static.

Lemma consistent_threads : forall r labs tmm, consistent r labs tmm -> (0 < length tmm)%nat.
Proof.
  intros r labs tmm (_ & _ & _ & _ & _ & _ & _ & _ & V7 & _). destruct tmm; [destruct V7|simpl; lia].
Qed.

Theorem boot_static : forall E r labs tmm b (w : world E), accepted_seed b -> consistent r labs tmm ->
    (forall m e, ~ In (Fin m, e) tmm) ->
    (forall i j, (i < j < length (logl r))%nat -> nth i labs 0 = nth j labs 0 ->
                 nth i (logl r) 0 < nth j (logl r) 0) ->
    let drawn := draw_seq E (length tmm) (length tmm) (seeded_state b (w_rng w)) in
    let inds := fst drawn in
    length inds = length tmm /\ (forall i, In i inds -> (i < length tmm)%nat) /\
    exists rr, bootstrap_resample_run r None false b w =
               (Ok rr, mkW (match b with BKeep => snd drawn | _ => w_rng w end) (w_warn w)) /\
      Permutation (combine (logl rr) (theta rr))
                  (flat_map (fun i => samples_of_thread r labs (Z.of_nat i)) inds) /\
      StronglySorted Z.le (logl rr) /\ length (theta rr) = length (logl rr) /\
      length (nlive_array rr) = length (logl rr) /\ settings rr = settings r /\ output rr = None /\
      (forall i, (i < length (logl rr))%nat ->
         (forall j, (j < i)%nat -> nth j (logl rr) 0 < nth i (logl rr) 0) ->
         nth i (nlive_array rr) 0 =
         Z.of_nat (length (filter (fun k => nth i (logl rr) 0 <=? snd (nth k tmm (NInf, 0))) inds))) /\
      (forall i, (S i < length (logl rr))%nat -> nth (S i) (nlive_array rr) 0 <= nth i (nlive_array rr) 0) /\
      (forall x, In x (nlive_array rr) -> 1 <= x) /\ last (nlive_array rr) 0 = 1.
Proof.
  intros E r labs tmm b w Hacc Hcon Hstat Hinc drawn inds. pose proof (consistent_threads _ _ _ Hcon) as HT.
  assert (I2 : length inds = length tmm) by apply draws_length.
  assert (I3 : forall i, In i inds -> (i < length tmm)%nat) by (intros i; apply draws_lt; auto).
  split; auto. split; auto.
  rewrite boot_form. unfold wbind at 1, get_state.
  rewrite (wbind_run _ _ _ _ _ _ _ _ (apply_seed_state E b w Hacc)).
  set (w0 := mkW (seeded_state b (w_rng w)) (w_warn w) : world E).
  set (w1 := mkW (snd drawn) (w_warn w) : world E).
  assert (I1 : randint 0 (length tmm) (length tmm) w0 = (Ok inds, w1)).
  { rewrite randint_draws by auto. rewrite map_add_0, Nat.sub_0_r. auto. }
  destruct (combine_drawn r labs tmm Hcon Hstat Hinc E inds w1) as (rr & C1 & C2 & C3 & C4 & C5 & C6 & C7 & C8 & C9 & C10 & C11).
  { intros H. rewrite H in I2. simpl in I2. lia. }
  { auto. }
  assert (Hb : boot_body r None false w0 = (Ok (with_settings rr (settings r)), w1)).
  { unfold boot_body. rewrite (wbind_run _ _ _ _ _ _ _ _ (get_run_threads_spec E r labs tmm _ Hcon)).
    rewrite map_length, seq_length. unfold draw_inds. rewrite (wbind_run _ _ _ _ _ _ _ _ I1).
    rewrite (wbind_run _ _ _ _ _ _ _ _ (get_threads E _ inds w1 (nth_thread r labs 0 (NInf, 0))
       ltac:(rewrite map_length, seq_length; intros i Hi; apply I3; auto))).
    rewrite (wbind_run _ _ _ _ _ _ _ _ C1). auto. }
  rewrite (wbind_run _ _ _ _ _ _ _ _ Hb).
  exists (with_settings rr (settings r)).
  split; [destruct b; reflexivity|].
  cbn [logl theta nlive_array with_settings settings output]. tauto.
Qed.

(** ** ninit_sep (C27) *)
Theorem boot_ninit : forall E r ths ninit b (w : world E) rr w',
    settings r = Some (Some ninit) ->
    bootstrap_resample_run r (Some ths) true b w = (Ok rr, w') ->
    let d1 := draw_seq E ninit ninit (seeded_state b (w_rng w)) in
    let d2 := draw_seq E (length ths - ninit) (length ths - ninit) (snd d1) in
    (ninit <= length ths)%nat /\ settings rr = settings r /\
      exists r1 (w1 w2 : world E),
        combine_threads (map (fun i => nth i ths r) (fst d1 ++ map (Nat.add ninit) (fst d2))) false w1 = (Ok r1, w2) /\
        rr = with_settings r1 (settings r).
Proof.
  intros E r ths ninit b w rr w' Hset H d1 d2. rewrite boot_form in H.
  apply wbind_Ok in H as (st & w1 & H0 & H). inversion H0; subst st w1. clear H0.
  assert (Hacc : accepted_seed b).
  { apply wbind_Ok in H as (u & w1 & Hs & _). apply apply_seed_inv in Hs. tauto. }
  rewrite (wbind_run _ _ _ _ _ _ _ _ (apply_seed_state E b w Hacc)) in H.
  apply wbind_Ok in H as (res & w3 & Hb & H). apply wbind_Ok in H as (u2 & w4 & _ & H).
  inversion H; subst. clear H. unfold boot_body in Hb.
  apply wbind_Ok in Hb as (l & w5 & Hl & Hb). inversion Hl; subst. clear Hl.
  apply wbind_Ok in Hb as (inds & w6 & Hd & Hb). apply wbind_Ok in Hb as (dr & w7 & Hg & Hb).
  apply wbind_Ok in Hb as (r1 & w8 & Hc & Hb). inversion Hb; subst.
  unfold draw_inds in Hd. rewrite Hset in Hd. destruct (thread_min_max r) as [tmm|]; [|discriminate].
  apply wbind_Ok in Hd as (u3 & w9 & Hw & Hd). 
  assert (w9 = mkW (seeded_state b (w_rng w)) (w_warn w)) as ->.
  { unfold wassert, wlift in Hw. inversion Hw. auto. }
  apply wbind_Ok in Hd as (a & w10 & Ha & Hd).
  destruct (length l <? ninit)%nat eqn:Hn; [discriminate|]. apply Nat.ltb_ge in Hn.
  apply wbind_Ok in Hd as (bb & w11 & Hbb & Hd). inversion Hd; subst.
  apply randint_draws_inv in Ha as [A1 A2]. apply randint_draws_inv in Hbb as [B1 B2].
  rewrite map_add_0, Nat.sub_0_r in A1. rewrite Nat.sub_0_r in A2. cbn [w_rng w_warn] in A1, A2.
  subst w10. cbn [w_rng w_warn] in B1, B2. fold d1 in A1, B1, B2. fold d2 in B1, B2.
  apply (get_threads_inv _ _ _ _ r) in Hg as [-> ->].
  split; auto. split; auto. exists r1, w6, w3. subst a bb. auto.
Qed.

Lemma boot_given : forall E r labs tmm ns b (w : world E), consistent r labs tmm ->
    bootstrap_resample_run r None ns b w =
    bootstrap_resample_run r (Some (map (fun k => nth_thread r labs (Z.of_nat k) (nth k tmm (NInf, 0)))
                                        (seq 0 (length tmm)))) ns b w.
Proof.
  intros E r labs tmm ns b w Hcon. unfold bootstrap_resample_run. unfold wbind at 1 8, get_state.
  unfold wbind at 1 7. destruct (apply_seed b w) as [[u|e] w1]; auto.
  rewrite (wbind_run _ _ _ _ _ _ _ _ (get_run_threads_spec E r labs tmm w1 Hcon)). auto.
Qed.

Theorem boot_ninit_samples : forall E r labs tmm ninit b (w : world E) rr w',
    consistent r labs tmm -> settings r = Some (Some ninit) ->
    bootstrap_resample_run r None true b w = (Ok rr, w') ->
    let m := (length tmm - ninit)%nat in
    let d1 := draw_seq E ninit ninit (seeded_state b (w_rng w)) in
    let first := fst d1 in
    let rest := map (Nat.add ninit) (fst (draw_seq E m m (snd d1))) in
    length first = ninit /\ length rest = m /\ (ninit <= length tmm)%nat /\
    (forall i, In i first -> (i < ninit)%nat) /\
    (forall i, In i rest -> (ninit <= i < length tmm)%nat) /\
    settings rr = settings r /\
    Permutation (combine (logl rr) (theta rr))
                (flat_map (fun i => samples_of_thread r labs (Z.of_nat i)) (first ++ rest)).
Proof.
  intros E r labs tmm ninit b w rr w' Hcon Hset H m d1 first rest. rewrite (boot_given E r labs tmm) in H by auto.
  destruct (boot_ninit _ _ _ _ _ _ _ _ Hset H) as (A3 & A6 & r1 & w1 & w2 & A7 & A8).
  rewrite map_length, seq_length in A3, A7. fold m in A7. fold d1 in A7. fold first in A7. fold rest in A7.
  assert (L1 : length first = ninit) by apply draws_length.
  assert (L2 : length rest = m) by (unfold rest; rewrite map_length; apply draws_length).
  assert (A4 : forall i, In i first -> (i < ninit)%nat).
  { intros i Hi. apply draws_lt in Hi; auto. destruct first; [destruct Hi|simpl in L1; lia]. }
  assert (A5 : forall i, In i rest -> (ninit <= i < length tmm)%nat).
  { intros i Hi. unfold rest in Hi. apply in_map_iff in Hi as (j & <- & Hj).
    assert (Hm : (0 < m)%nat).
    { destruct m; [|lia]. destruct Hj. }
    apply draws_lt in Hj; auto. unfold m in *. lia. }
  split; auto. split; auto. split; auto. split; auto. split; auto. split; auto.
  destruct (combine_threads_samples _ _ _ _ _ _ A7) as (S1 & _). subst rr. cbn [with_settings logl theta].
  rewrite S1. apply Permutation_refl'.
  assert (Hlt : forall i, In i (first ++ rest) -> (i < length tmm)%nat).
  { intros i Hi. apply in_app_or in Hi as [Hi|Hi]; [specialize (A4 i Hi); lia|apply A5; auto]. }
  clear - Hcon Hlt. induction (first ++ rest) as [|i t IH]; auto.
  cbn [map flat_map]. f_equal; [|apply IH; intros; apply Hlt; right; auto].
  rewrite nth_map_seq by (apply Hlt; left; auto). eapply nth_thread_samples; eauto.
Qed.
