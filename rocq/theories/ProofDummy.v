(** Dead-birth arrays of complete runs; joining labelled threads; dummy data. *)
From Verif Require Import Base ModelRun ModelData ModelDummy Spec SpecRun
  ProofBase ProofMonad ProofBirth ProofRun ProofProcess ProofDead ProofDict ProofComb ProofRuns ProofJoin ProofLow.

Definition sound_run (r : run) (labs : list Z) (tmm : list (ext * Z)) : Prop :=
  consistent r labs tmm /\ NoDup (logl r) /\
  (forall k f, (k < length tmm)%nat -> first_of labs (Z.of_nat k) f ->
     starts_below (fst (nth k tmm (NInf, 0))) (nth f (logl r) 0) = true) /\
  (forall m e, In (Fin m, e) tmm -> In m (logl r)).
Lemma complete_sound : forall r labs tmm, complete_run r labs tmm -> sound_run r labs tmm.
Proof. intros r labs tmm (H1 & H2 & H3 & H4 & _). repeat split; try apply H1; auto. Qed.

(** ** Births along a thread *)
Definition start_of (init : Z) (e : ext) : Z := match e with Fin z => z | NInf => init end.

Lemma sorted_lt_of_NoDup : forall l, StronglySorted Z.le l -> NoDup l -> StronglySorted Z.lt l.
Proof.
  induction l as [|x t IH]; intros Hs Hn; [constructor|].
  inversion Hs; inversion Hn; subst. constructor; auto.
  rewrite Forall_forall in *. intros y Hy. specialize (H2 y Hy).
  assert (x <> y) by (intros ->; auto). lia.
Qed.

Lemma chain_births : forall lg start b l, StronglySorted Z.lt lg -> (forall x, In x lg -> start < x) ->
    In (b, l) (combine (start :: but_last lg) lg) -> b < l /\ In l lg /\ (b = start \/ In b lg).
Proof.
  intros lg. induction lg as [|x t IH]; intros start b l Hs Hst Hin; [destruct Hin|].
  inversion Hs; subst. destruct t as [|y u].
  - destruct Hin as [H|[]]. injection H as <- <-. split; [apply Hst; left; auto|]. split; [left|]; auto.
  - change (combine (start :: but_last (x :: y :: u)) (x :: y :: u))
      with ((start, x) :: combine (x :: but_last (y :: u)) (y :: u)) in Hin.
    destruct Hin as [H|Hin].
    + injection H as <- <-. split; [apply Hst; left; auto|]. split; [left|]; auto.
    + rewrite Forall_forall in H2. destruct (IH x b l H1 H2 Hin) as (I1 & I2 & I3). split; auto. split; [right; auto|].
      destruct I3 as [->|I3]; right; [left; auto|right; auto].
Qed.

Lemma chain_count : forall lg start x, StronglySorted Z.lt lg -> (forall y, In y lg -> start < y) -> lg <> [] ->
    length (filter (fun p => (fst p <? x) && (x <=? snd p)) (combine (start :: but_last lg) lg)) =
    if (start <? x) && (x <=? last lg 0) then 1%nat else 0%nat.
Proof.
  intros lg. induction lg as [|z t IH]; intros start x Hs Hst Hne; [congruence|].
  inversion Hs; subst. destruct t as [|y u].
  - cbn. destruct ((start <? x) && (x <=? z)); auto.
  - change (combine (start :: but_last (z :: y :: u)) (z :: y :: u))
      with ((start, z) :: combine (z :: but_last (y :: u)) (y :: u)).
    change (last (z :: y :: u) 0) with (last (y :: u) 0).
    rewrite Forall_forall in H2. specialize (IH z x H1 H2 ltac:(discriminate)).
    assert (Hzl : z < last (y :: u) 0).
    { apply H2. rewrite last_nth. apply nth_In. cbn. lia. }
    assert (Hsz : start < z) by (apply Hst; left; auto).
    cbn [filter fst snd].
    destruct ((start <? x) && (x <=? z)) eqn:E; cbn [length]; rewrite IH.
    + apply andb_true_iff in E as [E1 E2]. apply Z.ltb_lt in E1. apply Z.leb_le in E2.
      replace (z <? x) with false by (symmetry; apply Z.ltb_ge; lia). cbn [andb].
      replace (start <? x) with true by (symmetry; apply Z.ltb_lt; lia).
      replace (x <=? last (y :: u) 0) with true by (symmetry; apply Z.leb_le; lia). auto.
    + destruct (Z.ltb_spec start x), (Z.leb_spec x z), (Z.ltb_spec z x); try lia; cbn [andb] in *; auto; discriminate.
Qed.

Lemma combine_snd : forall A B (a : list A) (b : list B), length a = length b -> map snd (combine a b) = b.
Proof. induction a as [|x a IH]; intros [|y b] H; simpl in *; try lia; auto. f_equal. apply IH. lia. Qed.
Lemma combine_fst : forall A B (a : list A) (b : list B), length a = length b -> map fst (combine a b) = a.
Proof. induction a as [|x a IH]; intros [|y b] H; simpl in *; try lia; auto. f_equal. apply IH. lia. Qed.
Lemma but_last_length : forall A (x : A) l, l <> [] -> length (x :: but_last l) = length l.
Proof.
  intros A x l H. unfold but_last. destruct (exists_last H) as (l' & y & ->).
  rewrite removelast_last, app_length. simpl. lia.
Qed.

Lemma thread_samps_cols : forall init th lab mm, a_thread th lab mm ->
    map s_logl (thread_samps init th) = logl th /\ map s_theta (thread_samps init th) = theta th /\
    points (thread_samps init th) = combine (start_of init (fst mm) :: but_last (logl th)) (logl th).
Proof.
  intros init th lab mm H. unfold thread_samps, get_tmm. rewrite (at_tmm _ _ _ H).
  replace (match [mm] with (Fin z, _) :: _ => z | _ => init end) with (start_of init (fst mm))
    by (destruct mm as [[|z] e]; auto).
  pose proof (at_theta _ _ _ H) as Ht. pose proof (at_ne _ _ _ H) as Hne.
  pose proof (but_last_length _ (start_of init (fst mm)) _ Hne) as Hb.
  set (bs := start_of init (fst mm) :: but_last (logl th)) in *.
  generalize dependent bs. generalize dependent (theta th). generalize (logl th). clear.
  induction l as [|x l IH]; intros ths Ht bs Hb.
  - destruct ths, bs; simpl in *; try lia; auto.
  - destruct ths as [|t ths], bs as [|b bs]; simpl in *; try lia.
    destruct (IH ths ltac:(lia) bs ltac:(lia)) as (I1 & I2 & I3). rewrite I1, I2.
    unfold points in *. cbn [map s_birth s_logl]. rewrite I3. auto.
Qed.

(** ** The samples of a list of threads *)
Definition ts_samps (init : Z) (l : tspecs) : list samp := flat_map (fun x => thread_samps init (fst x)) l.

Lemma ts_samps_cols : forall init l, (forall x, In x l -> ts_ok x) ->
    map s_logl (ts_samps init l) = map r_logl (ts_rows l) /\
    map s_theta (ts_samps init l) = map r_theta (ts_rows l).
Proof.
  intros init l. induction l as [|x t IH]; intros H; [auto|].
  destruct IH as [I1 I2]; [intros; apply H; right; auto|].
  pose proof (H x (or_introl eq_refl)) as Hx.
  destruct (thread_samps_cols init _ _ _ Hx) as (T1 & T2 & _).
  destruct (thread_rows_cols _ _ _ Hx) as (R1 & _ & _ & R4 & _).
  unfold ts_samps, ts_rows in *. cbn [flat_map]. rewrite !map_app, I1, I2, T1, T2, R1, R4. auto.
Qed.

Lemma NoDup_app_l : forall A (a b : list A), NoDup (a ++ b) -> NoDup a.
Proof. induction a as [|x a IH]; intros b H; [constructor|]. inversion H; subst. constructor; eauto. rewrite in_app_iff in H2. tauto. Qed.
Lemma NoDup_app_r : forall A (a b : list A), NoDup (a ++ b) -> NoDup b.
Proof. induction a as [|x a IH]; intros b H; auto. inversion H; eauto. Qed.

Lemma thread_nodup : forall l x, NoDup (map r_logl (ts_rows l)) -> In x l -> ts_ok x -> NoDup (logl (fst x)).
Proof.
  induction l as [|y t IH]; intros x Hn Hin Hx; [destruct Hin|].
  unfold ts_rows in Hn. cbn [flat_map] in Hn. rewrite map_app in Hn. destruct Hin as [->|Hin].
  - destruct (thread_rows_cols _ _ _ Hx) as (R1 & _). rewrite R1 in Hn. eapply NoDup_app_l; eauto.
  - apply IH; auto. eapply NoDup_app_r; eauto.
Qed.

Lemma thread_above : forall init th lab mm, a_thread th lab mm -> (forall x, In x (logl th) -> init < x) ->
    forall x, In x (logl th) -> start_of init (fst mm) < x.
Proof.
  intros init th lab mm H Hi x Hx. destruct mm as [[|z] e]; cbn [fst start_of]; [auto|].
  pose proof (at_first _ _ _ H) as Hf. cbn in Hf. apply Z.ltb_lt in Hf.
  pose proof (at_sorted _ _ _ H) as Hs. destruct (logl th) as [|y t]; [destruct Hx|].
  cbn in Hf. inversion Hs; subst. rewrite Forall_forall in H3. destruct Hx as [->|Hx]; [auto|].
  specialize (H3 x Hx). lia.
Qed.

Lemma ts_samps_ok : forall init l, (forall x, In x l -> ts_ok x) -> NoDup (map r_logl (ts_rows l)) ->
    (forall m e, In (Fin m, e) (ts_tmm l) -> In m (map r_logl (ts_rows l))) ->
    (forall x, In x (map r_logl (ts_rows l)) -> init < x) -> l <> [] ->
    well_formed init (points (ts_samps init l)).
Proof.
  intros init l Hok Hnd Hst Hi Hne.
  destruct (ts_samps_cols init l Hok) as [C1 _].
  assert (Hlg : forall x y, In x l -> In y (logl (fst x)) -> In y (map r_logl (ts_rows l))).
  { intros x y Hx Hy. destruct (thread_rows_cols _ _ _ (Hok x Hx)) as (R1 & _).
    rewrite <- R1 in Hy. apply in_map_iff in Hy as (r & <- & Hr). apply in_map. unfold ts_rows.
    apply in_flat_map. exists x. auto. }
  split.
  - destruct l as [|x t]; [congruence|]. pose proof (Hok x (or_introl eq_refl)) as Hx.
    destruct (thread_samps_cols init _ _ _ Hx) as (T1 & _). pose proof (at_ne _ _ _ Hx) as Hn.
    unfold ts_samps, points. cbn [flat_map]. intros He. rewrite map_app in He. apply app_eq_nil in He as [He _].
    apply map_eq_nil in He. rewrite He in T1. cbn in T1. congruence.
  - intros b d Hin. unfold points in Hin. apply in_map_iff in Hin as (s & Hs & Hin). injection Hs as <- <-.
    unfold ts_samps in Hin. apply in_flat_map in Hin as (x & Hx & Hin).
    pose proof (Hok x Hx) as Ha. destruct (thread_samps_cols init _ _ _ Ha) as (T1 & T2 & T3).
    assert (Hp : In (s_birth s, s_logl s) (points (thread_samps init (fst x)))).
    { unfold points. apply in_map_iff. exists s. auto. }
    rewrite T3 in Hp. apply chain_births in Hp.
    + destruct Hp as (P1 & P2 & P3). split; auto. split; [apply Hi; eapply Hlg; eauto|].
      assert (Hsrc : forall z, In z (map r_logl (ts_rows l)) -> exists b', In (b', z) (points (ts_samps init l))).
      { intros z Hz. rewrite <- C1 in Hz. apply in_map_iff in Hz as (s' & <- & Hs').
        exists (s_birth s'). unfold points. apply in_map_iff. exists s'. auto. }
      destruct P3 as [P3|P3].
      * destruct (snd (snd x)) as [[|z] e] eqn:Em; cbn in P3; [left; auto|right].
        rewrite P3. apply Hsrc. apply (Hst z e). unfold ts_tmm. apply in_map_iff. exists x. auto.
      * right. apply Hsrc. eapply Hlg; eauto.
    + apply sorted_lt_of_NoDup; [apply (at_sorted _ _ _ Ha)|]. eapply thread_nodup; eauto.
    + apply (thread_above init _ _ _ Ha). intros y Hy. apply Hi. eapply Hlg; eauto.
Qed.

Lemma ts_samps_count : forall init l x, (forall y, In y l -> ts_ok y) -> NoDup (map r_logl (ts_rows l)) ->
    (forall y, In y (map r_logl (ts_rows l)) -> init < y) -> init < x ->
    length (filter (fun s => (s_birth s <? x) && (x <=? s_logl s)) (ts_samps init l)) = live_at (ts_tmm l) x.
Proof.
  intros init l x. induction l as [|y t IH]; intros Hok Hnd Hi Hx; auto.
  unfold ts_rows in Hnd, Hi. cbn [flat_map] in Hnd, Hi. rewrite map_app in Hnd, Hi.
  pose proof (Hok y (or_introl eq_refl)) as Ha.
  destruct (thread_rows_cols _ _ _ Ha) as (R1 & _). rewrite R1 in Hnd, Hi.
  unfold ts_samps, ts_tmm, live_at in *. cbn [flat_map map filter]. rewrite filter_app, app_length.
  rewrite IH; [|intros; apply Hok; right; auto|eapply NoDup_app_r; eauto|intros; apply Hi, in_or_app; auto|auto].
  assert (H1 : length (filter (fun s => (s_birth s <? x) && (x <=? s_logl s)) (thread_samps init (fst y))) =
               if covers x (snd (snd y)) then 1%nat else 0%nat).
  { destruct (thread_samps_cols init _ _ _ Ha) as (T1 & T2 & T3).
    transitivity (length (filter (fun p => (fst p <? x) && (x <=? snd p)) (points (thread_samps init (fst y))))).
    - generalize (thread_samps init (fst y)). induction l as [|s u IHu]; auto. unfold points in *. cbn [map filter fst snd].
      destruct (_ && _); cbn [length]; auto.
    - rewrite T3, chain_count.
      + rewrite (at_last _ _ _ Ha). unfold covers, starts_below.
        destruct (snd (snd y)) as [[|z] e]; cbn [fst snd start_of]; auto.
        replace (init <? x) with true by (symmetry; apply Z.ltb_lt; auto). auto.
      + apply sorted_lt_of_NoDup; [apply (at_sorted _ _ _ Ha)|]. eapply NoDup_app_l; eauto.
      + apply (thread_above init _ _ _ Ha). intros z Hz. apply Hi, in_or_app. auto.
      + apply (at_ne _ _ _ Ha). }
  rewrite H1. destruct (covers x (snd (snd y))); auto.
Qed.

(** ** Threads of a sound run *)
Lemma sound_threads : forall r labs tmm, sound_run r labs tmm ->
    let l := run_threads r labs tmm in
    (forall x, In x l -> ts_ok x) /\ ts_tmm l = tmm /\ l <> [] /\
    Permutation (map key (ts_rows l)) (map (run_key r labs) (seq 0 (length (logl r)))) /\
    Permutation (map r_logl (ts_rows l)) (logl r) /\ NoDup (map r_logl (ts_rows l)) /\
    (forall m e, In (Fin m, e) (ts_tmm l) -> In m (map r_logl (ts_rows l))).
Proof.
  intros r labs tmm (Hcon & Hnd & S1 & S2) l.
  assert (Hok : forall x, In x l -> ts_ok x).
  { intros x Hx. apply in_map_iff in Hx as [k [<- Hk]]. apply in_seq in Hk. apply nth_thread_ok; auto. lia. }
  assert (Htm : ts_tmm l = tmm).
  { unfold ts_tmm, l, run_threads. rewrite map_map. simpl. symmetry. apply list_as_map. }
  pose proof (run_threads_keys r labs tmm Hcon Hok) as Hkeys. fold l in Hkeys.
  assert (Hlg : Permutation (map r_logl (ts_rows l)) (logl r)).
  { apply (Permutation_map fst) in Hkeys. rewrite !map_map in Hkeys.
    replace (logl r) with (map (fun x => fst (run_key r labs x)) (seq 0 (length (logl r)))); [exact Hkeys|].
    symmetry. unfold run_key. cbn [fst]. apply list_as_map. }
  split; [auto|]. split; [auto|]. split.
  - intros H. unfold l, run_threads in H. apply map_eq_nil in H.
    destruct Hcon as (_ & _ & _ & _ & _ & _ & _ & _ & V & _). destruct tmm; [destruct V|discriminate].
  - split; [auto|]. split; [auto|]. split; [eapply Permutation_NoDup; [symmetry; eauto|auto]|].
    rewrite Htm. intros m e Hin. apply (Permutation_in _ (Permutation_sym Hlg)). eauto.
Qed.

Lemma check_run_ok : forall E r labs tmm da dw (w : world E), consistent r labs tmm -> settings r = None ->
    NoDup (logl r) -> check_ns_run r da dw w = (Ok tt, w).
Proof.
  intros E r labs tmm da dw w Hc Hs Hn. pose proof (check_ns_run_spec E r da dw w) as H.
  destruct (check_ns_run r da dw w) as [[[]|e] w'].
  - destruct H as (_ & _ & _ & H). rewrite H; auto.
  - destruct H as (_ & _ & H). exfalso. apply H. split; auto. split; eauto.
Qed.

(** The dead-birth array of a sound run. *)
Theorem dead_birth_sound : forall E r labs tmm init da dw (w : world E),
    sound_run r labs tmm -> settings r = None -> (forall x, In x (logl r) -> init < x) ->
    exists out, run_dead_birth_array r init da dw w = (Ok out, w) /\
      well_formed init (points out) /\ NoDup (map s_logl out) /\
      map s_logl out = logl r /\ map s_theta out = theta r /\
      forall x, init < x ->
        length (filter (fun s => (s_birth s <? x) && (x <=? s_logl s)) out) = live_at tmm x.
Proof.
  intros E r labs tmm init da dw w Hr Hset Hi.
  pose proof Hr as (Hcon & Hnd & _ & _).
  destruct (sound_threads r labs tmm Hr) as (Hok & Htm & Hne & Hkey & Hlg & Hnd' & Hst).
  set (l := run_threads r labs tmm) in *.
  exists (sort_samps E (ts_samps init l)).
  assert (Hi' : forall x, In x (map r_logl (ts_rows l)) -> init < x).
  { intros x Hx. apply Hi. eapply Permutation_in; eauto. }
  destruct (ts_samps_cols init l Hok) as [C1 C2].
  assert (Hpm := sort_samps_perm E (ts_samps init l)).
  assert (Hcols : map (fun s => (s_logl s, s_theta s)) (sort_samps E (ts_samps init l)) =
                  map (fun i => (nth i (logl r) 0, nth i (theta r) [])) (seq 0 (length (logl r)))).
  { assert (Hp : Permutation (map (fun s => (s_logl s, s_theta s)) (sort_samps E (ts_samps init l)))
        (map (fun i => (nth i (logl r) 0, nth i (theta r) [])) (seq 0 (length (logl r))))).
    { rewrite (Permutation_map (fun s => (s_logl s, s_theta s)) Hpm).
      apply (Permutation_map (fun k => (fst k, snd (snd k)))) in Hkey. rewrite !map_map in Hkey.
      replace (map (fun s => (s_logl s, s_theta s)) (ts_samps init l)) with
        (map (fun x => (fst (key x), snd (snd (key x)))) (ts_rows l)); [exact Hkey|].
      cbn [key fst snd]. rewrite pair_cols, <- C1, <- C2.
      generalize (ts_samps init l). induction l0; cbn; congruence. }
    apply (ssorted_perm_eq _ (fun x y => fst x <= fst y)); auto.
    - intros x y Hx Hy Hxy Hyx.
      assert (Hnf : NoDup (map fst (map (fun s => (s_logl s, s_theta s)) (sort_samps E (ts_samps init l))))).
      { rewrite map_map. cbn [fst]. eapply Permutation_NoDup; [|exact Hnd'].
        rewrite <- C1. apply Permutation_map. symmetry. auto. }
      revert Hnf Hx Hy. generalize (map (fun s => (s_logl s, s_theta s)) (sort_samps E (ts_samps init l))).
      intros m Hnf Hx Hy. assert (fst x = fst y) by lia.
      induction m as [|q m IH]; [destruct Hx|]. cbn in Hnf. apply NoDup_cons_iff in Hnf as [H2 Hnf].
      destruct Hx as [->|Hx], Hy as [->|Hy]; auto.
      + exfalso. apply H2. rewrite H. apply in_map. auto.
      + exfalso. apply H2. rewrite <- H. apply in_map. auto.
    - apply (ssorted_map _ _ fst Z.le). rewrite map_map. apply sort_samps_sorted.
    - apply (ssorted_map _ _ fst Z.le). rewrite map_map. cbn [fst].
      rewrite <- list_as_map. destruct Hcon as (_ & _ & _ & _ & _ & V & _). auto. }
  split; [|split; [|split; [|split; [|split]]]].
  - unfold run_dead_birth_array.
    rewrite (wbind_run _ _ _ _ _ _ _ _ (check_run_ok E r labs tmm da dw w Hcon Hset Hnd)).
    rewrite (wbind_run _ _ _ _ _ _ _ _ (get_run_threads_spec E r labs tmm w Hcon)).
    replace (map (fun k => nth_thread r labs (Z.of_nat k) (nth k tmm (NInf, 0))) (seq 0 (length tmm)))
      with (map fst l) by (unfold l, run_threads; rewrite map_map; auto).
    destruct (map fst l) as [|th ths] eqn:El; [apply map_eq_nil in El; congruence|]. rewrite <- El.
    unfold wret. f_equal. f_equal. unfold ts_samps. rewrite map_map, concat_flat_map. auto.
  - pose proof (ts_samps_ok init l Hok Hnd' Hst Hi' Hne) as [W1 W2].
    pose proof (points_sort E (ts_samps init l)) as Hps. split.
    + intros He. rewrite He in Hps. apply Permutation_nil in Hps. auto.
    + intros b d Hin. apply (Permutation_in _ Hps) in Hin. destruct (W2 b d Hin) as (A1 & A2 & A3).
      split; auto. split; auto. destruct A3 as [A3|[b' A3]]; auto. right. exists b'.
      apply (Permutation_in _ (Permutation_sym Hps)). auto.
  - eapply Permutation_NoDup; [apply Permutation_map; symmetry; exact Hpm|]. rewrite C1. auto.
  - apply (f_equal (map fst)) in Hcols. rewrite !map_map in Hcols. cbn [fst] in Hcols.
    etransitivity; [exact Hcols|]. symmetry. apply list_as_map.
  - apply (f_equal (map snd)) in Hcols. rewrite !map_map in Hcols. cbn [snd] in Hcols.
    etransitivity; [exact Hcols|]. symmetry. destruct Hcon as (_ & _ & _ & _ & V & _). rewrite <- V. apply list_as_map.
  - intros x Hx. rewrite (filter_length_perm _ _ _ _ Hpm), ts_samps_count by auto. rewrite Htm. auto.
Qed.

(** ** Joining labelled threads *)
Definition ts0 : run * (Z * (ext * Z)) := (mkRun [] [] [] None None None None, (0, (NInf, 0))).
Definition in_order (l : tspecs) : Prop :=
  forall k, (k < length l)%nat -> fst (snd (nth k l ts0)) = Z.of_nat k.

Lemma row_in_thread : forall l x, In x (ts_rows l) -> (forall y, In y l -> ts_ok y) ->
    exists k, (k < length l)%nat /\ In x (thread_rows (fst (nth k l ts0)) (fst (snd (nth k l ts0)))).
Proof.
  intros l x Hx Hok. unfold ts_rows in Hx. apply in_flat_map in Hx as (y & Hy & Hx).
  destruct (In_nth _ _ ts0 Hy) as (k & Hk & <-). eauto.
Qed.
Lemma thread_row_facts : forall th lab mm x, a_thread th lab mm -> In x (thread_rows th lab) ->
    r_lab x = lab /\ starts_below (fst mm) (r_logl x) = true /\ r_logl x <= snd mm.
Proof.
  intros th lab mm x H Hx. destruct (thread_rows_cols th lab mm H) as (R1 & R2 & _ & _ & R5).
  assert (Hl : In (r_logl x) (logl th)) by (rewrite <- R1; apply in_map; auto).
  split; [|split].
  - assert (Hr : In (r_lab x) (repeat lab (length (logl th)))) by (rewrite <- R2; apply in_map; auto).
    apply repeat_spec in Hr. auto.
  - destruct mm as [[|z] e]; cbn; auto. apply Z.ltb_lt.
    change z with (start_of (r_logl x - 1) (Fin z)).
    pose proof (at_first _ _ _ H) as Hf. cbn in Hf. apply Z.ltb_lt in Hf. cbn.
    pose proof (at_sorted _ _ _ H) as Hs. destruct (logl th) as [|y t]; [destruct Hl|]. cbn in Hf.
    inversion Hs; subst. rewrite Forall_forall in H3. destruct Hl as [->|Hl]; auto.
    specialize (H3 _ Hl). lia.
  - rewrite <- (at_last _ _ _ H). pose proof (at_sorted _ _ _ H) as Hs.
    destruct (In_nth _ _ 0 Hl) as (i & Hi & <-). rewrite last_nth.
    destruct (Nat.eq_dec i (length (logl th) - 1)) as [->|Hn]; [lia|].
    apply (proj1 (ssorted_nth _ Z.le 0 _) Hs); lia.
Qed.

Lemma fresh_tspec : forall l, (forall x, In x l -> ts_ok x) -> in_order l -> tspec (ts_rows l) (ts_tmm l).
Proof.
  intros l Hok Hord.
  assert (Hlen : length (ts_tmm l) = length l) by (unfold ts_tmm; apply map_length).
  assert (Htm : forall k, (k < length l)%nat -> nth k (ts_tmm l) (NInf, 0) = snd (snd (nth k l ts0))).
  { intros k Hk. unfold ts_tmm. rewrite (map_nth_in _ _ _ (NInf, 0) ts0) by auto. auto. }
  split.
  - intros x Hx. destruct (row_in_thread l x Hx Hok) as (k & Hk & Hr).
    pose proof (Hok _ (nth_In l ts0 Hk)) as Ha.
    destruct (thread_row_facts _ _ _ _ Ha Hr) as (F1 & F2 & F3).
    exists k. rewrite Hlen, (Htm k Hk). split; auto. split; auto. rewrite F1. auto.
  - intros k Hk. rewrite Hlen in Hk. rewrite (Htm k Hk). pose proof (Hok _ (nth_In l ts0 Hk)) as Ha.
    destruct (thread_rows_cols _ _ _ Ha) as (R1 & R2 & R3 & R4 & R5).
    pose proof (at_ne _ _ _ Ha) as Hne.
    assert (Hp : (0 < length (logl (fst (nth k l ts0))))%nat) by (destruct (logl _); [congruence|simpl; lia]).
    set (rows := thread_rows _ _) in *.
    exists (nth (length rows - 1) rows row0).
    assert (Hin : In (nth (length rows - 1) rows row0) rows) by (apply nth_In; lia).
    split; [|split].
    + unfold ts_rows. apply in_flat_map. exists (nth k l ts0). split; [apply nth_In; auto|]. exact Hin.
    + destruct (thread_row_facts _ _ _ _ Ha Hin) as (F1 & _). rewrite F1. apply Hord; auto.
    + rewrite <- (at_last _ _ _ Ha), last_nth, <- R1, map_length.
      rewrite (map_nth_in _ _ _ 0 row0) by lia. auto.
Qed.

Lemma ninf_exists : forall rows tmm, rows <> [] -> tspec rows tmm ->
    (forall m e, In (Fin m, e) tmm -> In m (map r_logl rows)) -> In NInf (map fst tmm).
Proof.
  intros rows tmm Hne [H1 _] Hst.
  destruct (min_list_spec (map r_logl rows)) as [Hin Hmin]; [intros H; apply map_eq_nil in H; auto|].
  apply in_map_iff in Hin as [x [Hx Hin]]. destruct (H1 x Hin) as (k & K1 & K2 & K3 & K4).
  destruct (nth k tmm (NInf, 0)) as [[|z] e] eqn:Hk.
  - apply in_map_iff. exists (NInf, e). split; auto. rewrite <- Hk. apply nth_In; auto.
  - exfalso. assert (Hz : In (Fin z, e) tmm) by (rewrite <- Hk; apply nth_In; auto).
    specialize (Hmin z (Hst z e Hz)). simpl in K3. apply Z.ltb_lt in K3. lia.
Qed.

Lemma rows_sound : forall rows tmm nl, rows <> [] -> StronglySorted Z.le (map r_logl rows) ->
    NoDup (map r_logl rows) -> tspec rows tmm -> length nl = length rows ->
    (forall m e, In (Fin m, e) tmm -> In m (map r_logl rows)) ->
    sound_run (mkRun (map r_logl rows) (map r_theta rows) nl (Some (map r_lab rows)) (Some tmm) None None)
              (map r_lab rows) tmm.
Proof.
  intros rows tmm nl Hne Hs Hnd Ht Hl Hst. split; [|split; [|split]]; auto.
  - split; [auto|]. split; [auto|]. cbn [logl theta nlive_array]. rewrite map_length, Hl.
    apply tspec_columns; auto. apply (ninf_exists rows); auto.
  - intros k f Hk (F1 & F2 & F3). cbn [logl]. rewrite map_length in F1.
    destruct Ht as [H1 _]. destruct (H1 (nth f rows row0) (nth_In _ _ F1)) as (k' & K1 & K2 & K3 & K4).
    rewrite (map_nth_in _ _ _ 0 row0) in F2 by auto. assert (k' = k) by lia. subst k'.
    rewrite (map_nth_in _ _ _ 0 row0) by auto. auto.
Qed.

Theorem fresh_join : forall E l abp (w : world E), l <> [] -> (forall x, In x l -> ts_ok x) -> in_order l ->
    NoDup (map r_logl (ts_rows l)) ->
    (forall m e, In (Fin m, e) (ts_tmm l) -> In m (map r_logl (ts_rows l))) ->
    let c := starts_on (ts_tmm l) (min_list (map r_logl (ts_rows l))) in
    (c = 1%nat -> combine_threads (map fst l) abp w = (Raise AssertionError, w)) /\
    (c <> 1%nat -> exists r labs,
       combine_threads (map fst l) abp w =
         (Ok r, if (c =? 0)%nat then w else mkW (w_rng w) (WDupStarts :: w_warn w)) /\
       sound_run r labs (ts_tmm l) /\ settings r = None /\ output r = None /\
       (c = 0%nat -> complete_run r labs (ts_tmm l)) /\
       Permutation (combine (logl r) (combine labs (theta r))) (map key (ts_rows l))).
Proof.
  intros E l abp w Hne Hok Hord Hnd Hst c.
  pose proof (fresh_tspec l Hok Hord) as Ht.
  destruct (join_rows E l abp w Hne Hok Hnd Hst Ht) as (rows & J1 & J2 & J3 & J4 & J5 & J6).
  assert (Hlg : Permutation (map r_logl rows) (map r_logl (ts_rows l))).
  { apply (Permutation_map fst) in J4. rewrite !map_map in J4. exact J4. }
  assert (Hnd' : NoDup (map r_logl rows)) by (eapply Permutation_NoDup; [symmetry; exact Hlg|auto]).
  assert (Hst' : forall m e, In (Fin m, e) (ts_tmm l) -> In m (map r_logl rows)).
  { intros m e Hin. eapply Permutation_in; [symmetry; exact Hlg|eauto]. }
  assert (Hmin : min_list (map r_logl rows) = min_list (map r_logl (ts_rows l))).
  { assert (N1 : map r_logl rows <> []) by (intros He; apply map_eq_nil in He; auto).
    assert (N2 : map r_logl (ts_rows l) <> []) by (intros He; rewrite He in Hlg; apply Permutation_sym, Permutation_nil in Hlg; auto).
    destruct (min_list_spec _ N1) as [A1 A2]. destruct (min_list_spec _ N2) as [B1 B2].
    assert (In (min_list (map r_logl rows)) (map r_logl (ts_rows l))) by (eapply Permutation_in; eauto).
    assert (In (min_list (map r_logl (ts_rows l))) (map r_logl rows)) by (eapply Permutation_in; [symmetry|]; eauto).
    specialize (A2 _ H0). specialize (B2 _ H). lia. }
  assert (Hc : c = starts_on (ts_tmm l) (min_list (map r_logl rows))) by (unfold c; rewrite Hmin; auto).
  assert (Hninf := ninf_exists rows (ts_tmm l) J2 J5 Hst').
  assert (Hkp : forall nl, Permutation (combine (map r_logl rows) (combine (map r_lab rows) (theta
      (mkRun (map r_logl rows) (map r_theta rows) nl (Some (map r_lab rows)) (Some (ts_tmm l)) None None))))
      (map key (ts_rows l))).
  { intros nl. cbn [theta]. rewrite <- J4. replace (map key rows) with
      (combine (map r_logl rows) (combine (map r_lab rows) (map r_theta rows))); [reflexivity|].
    clear. induction rows as [|x t IH]; cbn; [auto|]. rewrite IH. auto. }
  set (live := map (fun x => Z.of_nat (live_at (ts_tmm l) x)) (map r_logl rows)).
  split; intros Hcc.
  - rewrite J1. unfold wbind. rewrite (dict_low_one rows (ts_tmm l) J2 J3 Hnd' J5 J6 Hst' E w); [auto|congruence].
  - destruct (Nat.eqb_spec c 0) as [H0|H0].
    + assert (Hsa : starts_above (ts_tmm l) (min_list (map r_logl rows))).
      { intros m e Hin. assert (Hm : In m (map r_logl rows)) by eauto.
        destruct (min_list_spec (map r_logl rows)) as [_ A2]; [intros He; apply map_eq_nil in He; auto|].
        specialize (A2 m Hm). assert (min_list (map r_logl rows) <> m); [|lia].
        intros He. rewrite H0 in Hc. unfold starts_on in Hc. symmetry in Hc.
        apply length_zero_iff_nil in Hc.
        assert (Hf : In (Fin m, e) (filter (fun mm => match fst mm with Fin z => z =? min_list (map r_logl rows) | NInf => false end) (ts_tmm l))).
        { apply filter_In. split; auto. cbn. apply Z.eqb_eq. auto. }
        rewrite Hc in Hf. auto. }
      rewrite J1. rewrite (wbind_run _ _ _ _ _ _ _ _ (dict_complete E rows (ts_tmm l) w J2 J3 Hnd' J5 J6 Hsa)).
      fold live. unfold wlift. rewrite drop_good by auto.
      eexists. exists (map r_lab rows). split; [reflexivity|].
      assert (Hso : sound_run (mkRun (map r_logl rows) (map r_theta rows) live (Some (map r_lab rows)) (Some (ts_tmm l)) None None)
              (map r_lab rows) (ts_tmm l)).
      { apply rows_sound; auto. unfold live. rewrite !map_length. auto. }
      split; [exact Hso|]. split; [auto|]. split; [auto|]. split; [|apply Hkp].
      intros _. destruct Hso as (S1 & S2 & S3 & S4). repeat (split; [assumption|]).
      cbn [logl nlive_array]. intros i Hi. unfold live. rewrite (map_nth_in _ _ _ 0 0) by auto. auto.
    + assert (H2 : (2 <= starts_on (ts_tmm l) (min_list (map r_logl rows)))%nat) by lia.
      rewrite J1. rewrite (wbind_run _ _ _ _ _ _ _ _ (dict_low_many rows (ts_tmm l) J2 J3 Hnd' J5 J6 Hst' E w H2)).
      fold live. unfold wlift. rewrite drop_good by auto.
      eexists. exists (map r_lab rows). split; [reflexivity|].
      split; [apply rows_sound; auto|].
      * fold live. unfold live. destruct rows; [congruence|]. cbn. rewrite !map_length. auto.
      * split; [auto|]. split; [auto|]. split; [intros; congruence|apply Hkp].
Qed.
