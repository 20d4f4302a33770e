(** C12 - C14, C24, C64: output of MultiNest and dynesty. *)
From Verif Require Import Base ModelRun ModelData Envs ProofBase ProofMonad Spec SpecRun ProofBirth ProofRun
     ProofProcess ProofDead ProofDict ProofJoin ProofLow ProofMulti ProofDynesty PropProcess PropCombine.

(** ** C12 *)

(** Lines of the two files: the sample, then two (one) further columns. *)
Definition dead_line (p : samp * (Z * Z)) : list Z :=
  let '(x, (c, d)) := p in s_theta x ++ [s_logl x; s_birth x; c; d].
Definition live_line (p : samp * Z) : list Z :=
  let '(x, c) := p in s_theta x ++ [s_logl x; s_birth x; c].

Lemma firstn_exact : forall A (l m : list A), firstn (length l) (l ++ m) = l.
Proof. intros. rewrite firstn_app, Nat.sub_diag, firstn_all. simpl. apply app_nil_r. Qed.
Lemma samp_row : forall x, samp_of_row (s_theta x ++ [s_logl x; s_birth x]) = x.
Proof.
  intros [t l b]. unfold samp_of_row, drop_cols. cbn [s_theta s_logl s_birth].
  rewrite app_length. cbn [length].
  replace (length t + 2 - 2)%nat with (length t) by lia.
  replace (length t + 2 - 1)%nat with (S (length t)) by lia.
  rewrite firstn_exact, !app_nth2 by lia. rewrite Nat.sub_diag.
  replace (S (length t) - length t)%nat with 1%nat by lia. reflexivity.
Qed.
Lemma dead_samp : forall p, samp_of_row (drop_cols 2 (dead_line p)) = fst p.
Proof.
  intros [x [c d]]. cbn [fst]. rewrite <- (samp_row x) at 2. f_equal. unfold dead_line, drop_cols.
  change [s_logl x; s_birth x; c; d] with ([s_logl x; s_birth x] ++ [c; d]). rewrite app_assoc.
  rewrite (app_length _ [c; d]). cbn [length]. rewrite Nat.add_sub. apply firstn_exact.
Qed.
Lemma live_samp : forall p, samp_of_row (drop_cols 1 (live_line p)) = fst p.
Proof.
  intros [x c]. cbn [fst]. rewrite <- (samp_row x) at 2. f_equal. unfold live_line, drop_cols.
  change [s_logl x; s_birth x; c] with ([s_logl x; s_birth x] ++ [c]). rewrite app_assoc.
  rewrite (app_length _ [c]). cbn [length]. rewrite Nat.add_sub. apply firstn_exact.
Qed.

(** Accepted exactly when all live points are above all dead points and no
    contour has more births than deaths; the result is then the run of the
    samples.  Otherwise AssertionError. *)
Theorem C12_multinest : forall E init root dead live da dw (w : world E),
    let s := map fst dead ++ map fst live in
    dead <> [] -> live <> [] ->
    well_formed init (births_deaths s) -> (da = true -> NoDup (map s_logl s)) ->
    let accepted := (forall x y, In x (map fst dead) -> In y (map fst live) -> s_logl x < s_logl y) /\
                    (forall c, c <> init -> (occurs c (map s_birth s) <= occurs c (map s_logl s))%nat) in
    (accepted -> exists r w', process_samples_array s da dw w = (Ok r, w') /\
       process_multinest_run root (map dead_line dead) (map live_line live) da dw w =
       (Ok (mkRun (logl r) (theta r) (nlive_array r) (thread_labels r) (thread_min_max r)
                  (Some (mkOut None None (Some root) [])) None), w')) /\
    (~ accepted -> exists w',
       process_multinest_run root (map dead_line dead) (map live_line live) da dw w =
       (Raise AssertionError, w')).
Proof.
  intros E init root dead live da dw w s Hd Hl Hwf Hda accepted.
  assert (H1 : map (fun x => samp_of_row (drop_cols 2 x)) (map dead_line dead) = map fst dead).
  { rewrite map_map. apply map_ext. apply dead_samp. }
  assert (H2 : map (fun x => samp_of_row (drop_cols 1 x)) (map live_line live) = map fst live).
  { rewrite map_map. apply map_ext. apply live_samp. }
  unfold process_multinest_run. rewrite H1, H2.
  assert (Hlt : (max_list (map s_logl (map fst dead)) <? min_list (map s_logl (map fst live))) = true <->
                forall x y, In x (map fst dead) -> In y (map fst live) -> s_logl x < s_logl y).
  { destruct (max_list_spec (map s_logl (map fst dead))) as [M1 M2]; [destruct dead; [congruence|discriminate]|].
    destruct (min_list_spec (map s_logl (map fst live))) as [N1 N2]; [destruct live; [congruence|discriminate]|].
    rewrite Z.ltb_lt. split.
    - intros H x y Hx Hy. specialize (M2 (s_logl x) ltac:(apply in_map; auto)).
      specialize (N2 (s_logl y) ltac:(apply in_map; auto)). lia.
    - intros H. apply in_map_iff in M1 as (x & <- & Hx). apply in_map_iff in N1 as (y & <- & Hy). auto. }
  destruct (process_spec E init s da dw w Hwf Hda) as (r & w' & P1 & P2 & P3).
  pose proof (static_iff E init s da dw w r w' Hwf P1) as Hst.
  assert (Hset : settings r = None) by (destruct P3 as (_ & _ & _ & P4 & _); auto).
  destruct (map fst dead) as [|x0 dt] eqn:Hdead; [destruct dead; [congruence|discriminate]|].
  destruct (map fst live) as [|y0 lt] eqn:Hlive; [destruct live; [congruence|discriminate]|].
  fold s.
  split.
  - intros [A1 A2]. exists r, w'. split; auto.
    rewrite (wbind_run _ _ _ _ _ _ _ _ (wassert_run E _ w (proj2 Hlt A1))).
    rewrite (wbind_run _ _ _ _ _ _ _ _ P1).
    rewrite (wbind_run _ _ _ _ _ _ _ _ (wassert_run E _ w' (proj2 Hst A2))).
    unfold with_output. rewrite Hset. reflexivity.
  - intros Hn. destruct (max_list (map s_logl (x0 :: dt)) <? min_list (map s_logl (y0 :: lt))) eqn:Hb.
    + rewrite (wbind_run _ _ _ _ _ _ _ _ (wassert_run E _ w eq_refl)).
      rewrite (wbind_run _ _ _ _ _ _ _ _ P1).
      destruct (forallb (fun mm => is_ninf (fst mm)) (get_tmm r)) eqn:Hf.
      * exfalso. apply Hn. split; [apply Hlt; auto|apply Hst; auto].
      * exists w'. reflexivity.
    + exists w. reflexivity.
Qed.
Print Assumptions C12_multinest.

(** Any lines, well formed or not: a live point which is not above all dead
    points is an AssertionError before anything else is done; otherwise the
    result is that of process_samples_array, or AssertionError if there is a
    thread which does not start from the whole prior. *)
Theorem C12_any_lines : forall E root dead live da dw (w : world E),
    let s := map fst dead ++ map fst live in
    let out := process_multinest_run root (map dead_line dead) (map live_line live) da dw w in
    dead <> [] -> live <> [] ->
    ((exists x y, In x (map fst dead) /\ In y (map fst live) /\ s_logl y <= s_logl x) -> out = (Raise AssertionError, w)) /\
    ((forall x y, In x (map fst dead) -> In y (map fst live) -> s_logl x < s_logl y) ->
       match process_samples_array s da dw w with
       | (Ok r, w') =>
           ((exists tmm m e, thread_min_max r = Some tmm /\ In (Fin m, e) tmm) -> out = (Raise AssertionError, w')) /\
           ((forall tmm x, thread_min_max r = Some tmm -> In x tmm -> fst x = NInf) ->
              out = (Ok (with_output r (Some (mkOut None None (Some root) []))), w'))
       | (Raise e, w') => out = (Raise e, w')
       end).
Proof.
  intros E root dead live da dw w s out Hd Hl. unfold out, process_multinest_run.
  assert (H1 : map (fun x => samp_of_row (drop_cols 2 x)) (map dead_line dead) = map fst dead).
  { rewrite map_map. apply map_ext. apply dead_samp. }
  assert (H2 : map (fun x => samp_of_row (drop_cols 1 x)) (map live_line live) = map fst live).
  { rewrite map_map. apply map_ext. apply live_samp. }
  rewrite H1, H2. fold s.
  destruct (max_list_spec (map s_logl (map fst dead))) as [M1 M2]; [destruct dead; [congruence|discriminate]|].
  destruct (min_list_spec (map s_logl (map fst live))) as [N1 N2]; [destruct live; [congruence|discriminate]|].
  apply in_map_iff in M1 as (x1 & M1 & X1). apply in_map_iff in N1 as (y1 & N1 & Y1).
  destruct (map fst dead) as [|x0 dt] eqn:Hdead; [destruct dead; [congruence|discriminate]|].
  destruct (map fst live) as [|y0 lt] eqn:Hlive; [destruct live; [congruence|discriminate]|].
  set (mx := max_list _) in *. set (mn := min_list _) in *. split.
  - intros (x & y & Hx & Hy & Hlt). apply (in_map s_logl), M2 in Hx. apply (in_map s_logl), N2 in Hy.
    replace (mx <? mn) with false by (symmetry; apply Z.ltb_ge; lia). reflexivity.
  - intros H. specialize (H _ _ X1 Y1). replace (mx <? mn) with true by (symmetry; apply Z.ltb_lt; lia).
    rewrite (wbind_run _ _ _ _ _ _ _ _ (wassert_run E _ w eq_refl)).
    destruct (process_samples_array s da dw w) as [[r|e] w'] eqn:P; [|unfold wbind; rewrite P; reflexivity].
    rewrite (wbind_run _ _ _ _ _ _ _ _ P). split.
    + intros (tmm & m & e & Ht & Hi). unfold get_tmm. rewrite Ht.
      replace (forallb _ tmm) with false; [reflexivity|]. symmetry. apply not_true_is_false. intros Hf.
      rewrite forallb_forall in Hf. specialize (Hf _ Hi). discriminate.
    + intros Hall. replace (forallb _ (get_tmm r)) with true; [reflexivity|]. symmetry. apply forallb_forall. intros x Hx.
      unfold get_tmm in Hx. destruct (thread_min_max r) as [tmm|] eqn:Et; [|destruct Hx]. rewrite (Hall tmm x eq_refl Hx). reflexivity.
Qed.
Print Assumptions C12_any_lines.
Example C12_any_example : forall w : world (script_env []),
    process_multinest_run 7 (map dead_line [(mkSamp [40] 4 (-9), (0, 0))]) (map live_line [(mkSamp [30] 4 99, 0)]) true true w = (Raise AssertionError, w) /\
    fst (process_multinest_run 7 (map dead_line [(mkSamp [40] 4 (-9), (0, 0))]) (map live_line [(mkSamp [30] 5 99, 0)]) true true w) =
    fst (process_samples_array [mkSamp [40] 4 (-9); mkSamp [30] 5 99] true true w).
Proof. intros [r k]. vm_compute. split; reflexivity. Qed.

(** Three live points, each dead point replaced once; the last two columns are
    ignored. *)
Definition mn_dead : list (samp * (Z * Z)) :=
  [(mkSamp [10] 1 (-9), (100, 101)); (mkSamp [20] 2 (-9), (100, 101))].
Definition mn_live : list (samp * Z) :=
  [(mkSamp [50] 5 2, 100); (mkSamp [30] 3 (-9), 100); (mkSamp [40] 4 1, 100)].
Example C12_example_wf : well_formed (-9) (births_deaths (map fst mn_dead ++ map fst mn_live)).
Proof. wf. Qed.
Example C12_example : forall w : world (script_env []),
    process_multinest_run 7 (map dead_line mn_dead) (map live_line mn_live) true true w =
    (Ok (mkRun [1; 2; 3; 4; 5] [[10]; [20]; [30]; [40]; [50]] [3; 3; 3; 2; 1] (Some [0; 1; 2; 0; 1])
               (Some [(NInf, 4); (NInf, 5); (NInf, 3)]) (Some (mkOut None None (Some 7) [])) None), w).
Proof. intros [r k]. vm_compute. reflexivity. Qed.
(** Rejected: a live point below a dead one; two births on one contour. *)
Example C12_example_reject : forall w : world (script_env []),
    fst (process_multinest_run 7 (map dead_line [(mkSamp [40] 4 (-9), (0, 0))])
           (map live_line [(mkSamp [30] 3 (-9), 0)]) true true w) = Raise AssertionError /\
    fst (process_multinest_run 7 (map dead_line mn_dead)
           (map live_line [(mkSamp [50] 5 2, 100); (mkSamp [30] 3 2, 100)]) true true w) = Raise AssertionError.
Proof. intros [r k]. vm_compute. split; reflexivity. Qed.

(** ** C64: processed runs are complete, and can be split and joined *)
Theorem C64_processed_run_splits : forall E init s da dw (w : world E) r w' abp,
    well_formed init (births_deaths s) -> NoDup (map s_logl s) ->
    process_samples_array s da dw w = (Ok r, w') ->
    (exists labs tmm, complete_run r labs tmm) /\
    ((forall m, (1 < occurs m (map s_birth s))%nat -> exists x, In x (map s_logl s) /\ (m = init \/ x < m)) ->
     forall w2 : world E, (let* threads := get_run_threads r in combine_threads threads abp) w2 = (Ok r, w2)).
Proof.
  intros E init s da dw w r w' abp Hwf Hnd H.
  pose proof (process_returns E init s da dw w r w' Hwf H) as Hp.
  destruct (processed_complete E init s r Hwf Hnd Hp) as (labs & tmm & Hc & Ho & Hs & Hb).
  split; [eauto|]. intros Hlow w2.
  assert (Hperm : Permutation (logl r) (map s_logl s)).
  { destruct Hp as (P1 & _). rewrite P1. apply Permutation_map, sort_samps_perm. }
  rewrite (split_join E r labs tmm abp w2 Hc).
  - pose proof Hc as ((C1 & C2 & _) & _). destruct r as [a b c d e f g]. cbn in *. subst. reflexivity.
  - apply above_some_min; [eapply complete_nonempty; eauto|]. intros m e Hin.
    destruct (Hlow m (Hb m e Hin)) as (x & X1 & X2). exists x.
    assert (X1' : In x (logl r)) by (eapply Permutation_in; [symmetry; exact Hperm|auto]).
    split; auto. destruct X2 as [->|]; auto. exfalso.
    destruct Hc as (_ & _ & _ & Hc & _). specialize (Hc _ _ Hin).
    assert (Hi : In init (map s_logl s)) by (eapply Permutation_in; [exact Hperm|auto]).
    apply in_map_iff in Hi as (y & Y1 & Y2). destruct Hwf as [_ Hwf].
    destruct (Hwf (s_birth y) (s_logl y)) as (_ & W & _); [|lia].
    apply in_map_iff. exists y. auto.
Qed.
Print Assumptions C64_processed_run_splits.
Definition samples_dyn : list samp :=
  [mkSamp [70] 7 3; mkSamp [20] 2 (-9); mkSamp [50] 5 (-9); mkSamp [60] 6 3; mkSamp [30] 3 (-9)].
Example C64_example : well_formed (-9) (births_deaths samples_dyn) /\ NoDup (map s_logl samples_dyn) /\
  (forall m, (1 < occurs m (map s_birth samples_dyn))%nat ->
             exists x, In x (map s_logl samples_dyn) /\ (m = -9 \/ x < m)).
Proof.
  split; [wf|]. split; [repeat constructor; simpl; lia|].
  intros m. unfold occurs, samples_dyn. cbn [map s_birth s_logl count_occ]. intros H. exists 2. split; [simpl; auto|].
  destruct (Z.eq_dec 3 m) as [<-|]; [lia|]. destruct (Z.eq_dec (-9) m) as [<-|]; [auto|]. lia.
Qed.

(** ** C13 *)
Theorem C13_dynesty_static : forall E d nl (w : world E),
    labelled (d_logl d) (d_samples d) (d_id d) nl -> d_nlive d = Some nl ->
    (forall k, 0 <= k < Z.of_nat nl -> In k (skipn (length (d_id d) - nl) (d_id d))) ->
    exists nla tmm,
      process_dynesty_run d w =
      (Ok (mkRun (d_logl d) (d_samples d) nla (Some (d_id d)) (Some tmm) None None), w) /\
      valid_run (mkRun (d_logl d) (d_samples d) nla (Some (d_id d)) (Some tmm) None None) /\
      length nla = length (d_logl d) /\
      (forall i, (i < length (d_logl d))%nat ->
         nth i nla 0 = Z.of_nat (length (filter (fun k => existsb (Z.eqb (Z.of_nat k)) (skipn i (d_id d))) (seq 0 nl)))) /\
      length tmm = nl /\
      (forall k, (k < nl)%nat -> fst (nth k tmm (NInf, 0)) = NInf /\
                                 ends_at (d_logl d) (d_id d) k (snd (nth k tmm (NInf, 0)))).
Proof.
  intros E d nl w Hlab Hnl Hend. pose proof (dyn_static E d nl w Hlab Hnl Hend) as H. cbv zeta in H.
  do 2 eexists. split; [exact H|].
  rewrite !map_length, seq_length, finals_length. split; [|split; [auto|split; [|split; [auto|]]]].
  - unfold process_dynesty_run in H. cbv zeta in H.
    apply wbind_Ok in H as (u0 & w0 & _ & H). apply wbind_Ok in H as (u00 & w00 & _ & H).
    apply wbind_Ok in H as (u1 & w1 & _ & H). apply wbind_Ok in H as ([st sn] & w2 & _ & H).
    apply wbind_Ok in H as (u02 & w02 & _ & H). apply wbind_Ok in H as (r & w3 & _ & H). apply wbind_Ok in H as (u4 & w4 & C & H).
    injection H as H _. subst r.
    match type of C with check_ns_run ?r _ _ _ = _ => pose proof (check_ns_run_spec E r false false w3) as Hs end.
    rewrite C in Hs. apply Hs.
  - intros i Hi. rewrite nth_map_seq by auto. auto.
  - intros k Hk. rewrite (map_nth_in _ _ _ _ 0%nat) by (rewrite finals_length; auto). cbn [fst snd].
    split; auto. eexists. split; [eapply finals_last; eauto|auto].
Qed.
Print Assumptions C13_dynesty_static.

(** Other labels are rejected: they must be 0, ..., nlive - 1, all of them among
    the last nlive points. *)
Theorem C13_rejects : forall E d nl (w : world E), d_nlive d = Some nl ->
    length (d_logl d) = length (d_samples d) -> length (d_id d) = length (d_samples d) ->
    ~ ((forall x, In x (d_id d) <-> 0 <= x < Z.of_nat nl) /\
       (forall k, 0 <= k < Z.of_nat nl -> In k (skipn (length (d_id d) - nl) (d_id d)))) ->
    process_dynesty_run d w = (Raise AssertionError, w).
Proof.
  intros E d nl w Hnl HL1 HL2 Hbad. unfold process_dynesty_run. cbv zeta. rewrite !fill_exact by auto.
  change (@wlift E (list Z)) with (fun (m : res (list Z)) (w : world E) => (m, w)). unfold wbind at 1 2. cbv beta iota.
  destruct (list_eqb (unique (d_id d)) (zrange (length (unique (d_id d))))) eqn:H1; [|reflexivity].
  unfold wassert, wlift, assertb, wbind. rewrite Hnl.
  destruct (length (unique (d_id d)) =? nl)%nat eqn:H2; [|reflexivity].
  destruct (list_eqb (unique (last_k nl (d_id d))) (zrange nl)) eqn:H3; [|reflexivity].
  exfalso. apply Hbad. apply list_eqb_eq in H1, H3. apply Nat.eqb_eq in H2. rewrite H2 in H1. split.
  - intros x. rewrite <- in_unique, H1. apply in_zrange.
  - intros k Hk. destruct nl as [|nl]; [lia|]. apply in_zrange in Hk. rewrite <- H3 in Hk.
    apply (proj1 (in_unique _ _)) in Hk. exact Hk.
Qed.
Print Assumptions C13_rejects.
(** Arrays which do not have one entry per sample (numpy repeats a single
    entry, so a length of one is left out). *)
Theorem C13_lengths : forall E d (w : world E),
    (length (d_logl d) <> length (d_samples d) /\ length (d_logl d) <> 1%nat \/
     length (d_logl d) = length (d_samples d) /\
     length (d_id d) <> length (d_samples d) /\ length (d_id d) <> 1%nat) ->
    process_dynesty_run d w = (Raise ValueError, w).
Proof.
  assert (Hf : forall (l : list Z) n, length l <> n -> length l <> 1%nat -> fill_slice n l = Raise ValueError).
  { intros l n H1 H2. unfold fill_slice. rewrite (proj2 (Nat.eqb_neq _ _) H1).
    destruct l as [|x [|y t]]; auto. contradiction H2. reflexivity. }
  intros E d w [[H1 H2]|(H0 & H1 & H2)]; unfold process_dynesty_run.
  - rewrite (Hf _ _ H1 H2). reflexivity.
  - rewrite (fill_exact _ _ _ H0), (Hf _ _ H1 H2). reflexivity.
Qed.
Print Assumptions C13_lengths.
Example C13_lengths_example : let d := mkDyn [1; 2; 3] [[10]; [20]] [0; 1] (Some 2%nat) [] [] [] None in
    length (d_logl d) <> length (d_samples d) /\ length (d_logl d) <> 1%nat.
Proof. simpl. lia. Qed.
(** A thread which ended early. *)
Example C13_rejects_example : ~ (forall k, 0 <= k < Z.of_nat 2 -> In k (skipn (length [1; 0; 1; 0; 0] - 2) [1; 0; 1; 0; 0])).
Proof. intros H. specialize (H 1 ltac:(lia)). simpl in H. lia. Qed.
Definition dyn_example : dynesty :=
  mkDyn [1; 2; 3; 5; 6] [[10]; [20]; [30]; [50]; [60]] [0; 1; 0; 1; 0] (Some 2%nat) [] [] [] None.
Example C13_example :
    labelled (d_logl dyn_example) (d_samples dyn_example) (d_id dyn_example) 2 /\
    (forall k, 0 <= k < Z.of_nat 2 -> In k (skipn (length (d_id dyn_example) - 2) (d_id dyn_example))).
Proof.
  split; [|simpl; lia]. split; [discriminate|]. split; [reflexivity|]. split; [reflexivity|].
  split; [repeat (constructor; try lia)|]. simpl. lia.
Qed.
Example C13_example_result : forall w : world (script_env []),
    fst (process_dynesty_run dyn_example w) =
    Ok (mkRun [1; 2; 3; 5; 6] [[10]; [20]; [30]; [50]; [60]] [2; 2; 2; 2; 1] (Some [0; 1; 0; 1; 0])
              (Some [(NInf, 6); (NInf, 5)]) None None).
Proof. intros [r k]. vm_compute. reflexivity. Qed.

(** ** C14 *)

(** Without samples_n: AssertionError as soon as some batch starts above the
    lowest logl (and not two threads exactly on it). *)
Theorem C14_no_samples_n_raises : forall E d T starts (w : world E),
    labelled (d_logl d) (d_samples d) (d_id d) T -> d_nlive d = None -> d_samples_n d = None ->
    fold_right Z.add 0 (d_batch_nlive d) = Z.of_nat T ->
    batch_starts (d_id d) (d_samples_batch d) (d_batch_bounds d) T starts ->
    (length (filter (exactly_on (nth 0 (d_logl d) 0%Z)) starts) <= 1)%nat ->
    (exists m, In (Fin m) starts /\ nth 0 (d_logl d) 0 < m) ->
    process_dynesty_run d w = (Raise AssertionError, w).
Proof. intros. eapply dyn_no_samples_n; eauto. Qed.
Print Assumptions C14_no_samples_n_raises.

(** The number of threads must be that of all the batches. *)
Theorem C14_rejects : forall E d (w : world E), d_nlive d = None ->
    length (d_logl d) = length (d_samples d) -> length (d_id d) = length (d_samples d) ->
    ~ (forall x, In x (d_id d) <-> 0 <= x < fold_right Z.add 0 (d_batch_nlive d)) ->
    process_dynesty_run d w = (Raise AssertionError, w).
Proof.
  intros E d w Hnl HL1 HL2 Hbad. unfold process_dynesty_run. cbv zeta. rewrite !fill_exact by auto.
  change (@wlift E (list Z)) with (fun (m : res (list Z)) (w : world E) => (m, w)). unfold wbind at 1 2. cbv beta iota.
  destruct (list_eqb (unique (d_id d)) (zrange (length (unique (d_id d))))) eqn:H1; [|reflexivity].
  unfold wassert, wlift, assertb, wbind. rewrite Hnl.
  destruct (Z.of_nat (length (unique (d_id d))) =? zsum (d_batch_nlive d)) eqn:H2; [|reflexivity].
  exfalso. apply Hbad. apply list_eqb_eq in H1. apply Z.eqb_eq in H2.
  intros x. rewrite <- in_unique, H1. change (fold_right Z.add 0 (d_batch_nlive d)) with (zsum (d_batch_nlive d)).
  rewrite <- H2. apply in_zrange.
Qed.
Print Assumptions C14_rejects.

(** samples_n of another length, and a thread whose first sample belongs to no
    batch or to a batch without bounds. *)
Theorem C14_samples_n_length : forall E d T s (w : world E),
    labelled (d_logl d) (d_samples d) (d_id d) T -> d_nlive d = None -> d_samples_n d = Some s ->
    fold_right Z.add 0 (d_batch_nlive d) = Z.of_nat T ->
    length s <> length (d_logl d) -> length s <> 2%nat ->
    (length s, length (d_logl d)) <> (0%nat, 1%nat) ->
    process_dynesty_run d w = (Raise ValueError, w).
Proof.
  intros E d T s w Hlab Hnl Hs Hsum H1 H2 H3. pose proof Hlab as (L1 & L2 & L3 & L4 & L5).
  unfold process_dynesty_run. rewrite (uniq_labels _ _ _ _ Hlab), zrange_length, Hnl, Hs. cbv zeta.
  rewrite (wbind_run _ _ _ _ _ _ _ _ (lift_run E _ _ _ w (fill_exact _ _ (d_logl d) (eq_sym L2)))).
  rewrite (wbind_run _ _ _ _ _ _ _ _ (lift_run E _ _ _ w (fill_exact _ _ (d_id d) (eq_trans L3 (eq_sym L2))))).
  rewrite (wbind_run _ _ _ _ _ _ _ _ (wassert_run E _ w (proj2 (list_eqb_eq _ _) eq_refl))).
  apply wbind_raise. rewrite (wbind_run _ _ _ _ _ _ _ _ (wassert_run E _ w (proj2 (Z.eqb_eq _ _) (eq_sym Hsum)))).
  apply wbind_raise. apply wbind_raise.
  assert (Hd : length (diff s) = (length s - 1)%nat).
  { destruct s as [|x t]; [reflexivity|]. pose proof (diff_len (x :: t) ltac:(discriminate)) as Hd.
    rewrite app_length in Hd. cbn [length] in *. lia. }
  assert (0 < length (d_logl d))%nat by (destruct (d_logl d); [congruence|simpl; lia]).
  unfold fill_slice. rewrite (proj2 (Nat.eqb_neq _ _)).
  - destruct (diff s) as [|x [|y t]]; auto. cbn [length] in Hd. lia.
  - rewrite Hd, L2. intros He. destruct (length s) as [|n] eqn:Hn; [|lia].
    apply H3. f_equal. lia.
Qed.
Print Assumptions C14_samples_n_length.

Lemma mapM_raises : forall A B (f : A -> res B) l e x, In x l -> f x = Raise e ->
    (forall y e', f y = Raise e' -> e' = e) -> mapM f l = Raise e.
Proof.
  induction l as [|y t IH]; intros e x Hin Hx Hall; [destruct Hin|]. cbn [mapM].
  destruct (f y) as [b|e'] eqn:Hy; cbn [rbind]; [|f_equal; eauto].
  destruct Hin as [->|Hin]; [congruence|]. rewrite (IH e x Hin Hx Hall). reflexivity.
Qed.
Lemma first_of_unique : forall labs k f g, first_of labs k f -> first_of labs k g -> f = g.
Proof.
  intros labs k f g (F1 & F2 & F3) (G1 & G2 & G3).
  destruct (lt_eq_lt_dec f g) as [[H|H]|H]; auto; [destruct (G3 f H F2)|destruct (F3 g H G2)].
Qed.
Theorem C14_no_batch : forall E d T k f (w : world E),
    labelled (d_logl d) (d_samples d) (d_id d) T -> d_nlive d = None ->
    (forall s, d_samples_n d = Some s -> length s = length (d_logl d)) ->
    fold_right Z.add 0 (d_batch_nlive d) = Z.of_nat T ->
    (k < T)%nat -> first_of (d_id d) (Z.of_nat k) f ->
    ((length (d_samples_batch d) <= f)%nat \/
     exists b, nth_error (d_samples_batch d) f = Some b /\ (length (d_batch_bounds d) <= b)%nat) ->
    process_dynesty_run d w = (Raise IndexError, w).
Proof.
  intros E d T k f w Hlab Hnl Hsn Hsum Hk Hf Hbad. pose proof Hlab as (L1 & L2 & L3 & L4 & L5).
  unfold process_dynesty_run. rewrite (uniq_labels _ _ _ _ Hlab), zrange_length, Hnl. cbv zeta.
  rewrite (wbind_run _ _ _ _ _ _ _ _ (lift_run E _ _ _ w (fill_exact _ _ (d_logl d) (eq_sym L2)))).
  rewrite (wbind_run _ _ _ _ _ _ _ _ (lift_run E _ _ _ w (fill_exact _ _ (d_id d) (eq_trans L3 (eq_sym L2))))).
  rewrite (wbind_run _ _ _ _ _ _ _ _ (wassert_run E _ w (proj2 (list_eqb_eq _ _) eq_refl))).
  apply wbind_raise. rewrite (wbind_run _ _ _ _ _ _ _ _ (wassert_run E _ w (proj2 (Z.eqb_eq _ _) (eq_sym Hsum)))).
  match goal with |- wbind ?m ?f w = _ => assert (Hd : m w = (Ok (option_map diff (d_samples_n d)), w)) end.
  { destruct (d_samples_n d) as [s|] eqn:Hs; [|reflexivity].
    rewrite (wbind_run _ _ _ _ _ _ _ _ (lift_run E _ _ _ w (fill_exact _ (length (d_samples d) - 1) (diff s) ltac:(
      pose proof (Hsn s eq_refl) as Hl; assert (s <> []) by (intros ->; destruct (d_logl d); simpl in *; congruence);
      pose proof (diff_len s ltac:(auto)) as Hd; rewrite app_length in Hd; cbn [length] in Hd; rewrite L2; lia)))).
    reflexivity. }
  rewrite (wbind_run _ _ _ _ _ _ _ _ Hd). apply wbind_raise. unfold wlift. f_equal.
  apply (mapM_raises _ _ _ _ IndexError (Z.of_nat k)).
  - apply in_zrange. lia.
  - cbv zeta. pose proof (hd_first (Z.of_nat k) (d_id d) ltac:(apply L5; lia)) as Hh.
    rewrite (first_of_unique _ _ _ _ Hh Hf). unfold at_ix.
    destruct Hbad as [Hb|(b & B1 & B2)].
    + rewrite (proj2 (nth_error_None _ _) Hb). reflexivity.
    + rewrite B1. cbn [rbind]. rewrite (proj2 (nth_error_None _ _) B2). reflexivity.
  - clear Hbad. intros z e. cbv zeta. unfold at_ix.
    destruct (nth_error (d_samples_batch d) _) as [b|]; cbn [rbind]; [destruct (nth_error (d_batch_bounds d) b)|]; intros H; inversion H; reflexivity.
Qed.
Print Assumptions C14_no_batch.
Definition dyn_short : dynesty :=
  mkDyn [1; 2; 3; 5; 6] [[10]; [20]; [30]; [50]; [60]] [0; 1; 2; 2; 0] None [2; 1]
        [0; 0; 1; 1; 0]%nat [NInf] None.
Example C14_no_batch_example :
    labelled (d_logl dyn_short) (d_samples dyn_short) (d_id dyn_short) 3 /\
    fold_right Z.add 0 (d_batch_nlive dyn_short) = Z.of_nat 3 /\ first_of (d_id dyn_short) (Z.of_nat 2) 2 /\
    nth_error (d_samples_batch dyn_short) 2 = Some 1%nat /\ (length (d_batch_bounds dyn_short) <= 1)%nat.
Proof.
  split; [|split; [reflexivity|split; [|split; [reflexivity|simpl; lia]]]].
  - split; [discriminate|]. split; [reflexivity|]. split; [reflexivity|].
    split; [repeat (constructor; try lia)|]. simpl. lia.
  - split; [simpl; lia|]. split; [reflexivity|]. intros j Hj. destruct j as [|[|j]]; simpl; lia.
Qed.

(** With samples_n: nlive_array is samples_n. *)
Theorem C14_samples_n : forall E d T starts s (w : world E),
    labelled (d_logl d) (d_samples d) (d_id d) T -> d_nlive d = None -> d_samples_n d = Some s ->
    fold_right Z.add 0 (d_batch_nlive d) = Z.of_nat T ->
    batch_starts (d_id d) (d_samples_batch d) (d_batch_bounds d) T starts ->
    length s = length (d_logl d) ->
    (length (filter (exactly_on (nth 0 (d_logl d) 0%Z)) starts) <= 1)%nat ->
    nth 0 s 0 = Z.of_nat (length (filter (at_or_below (nth 0 (d_logl d) 0)) starts)) ->
    (forall x, In x s -> 1 <= x) -> last s 0 = 1 -> In NInf starts ->
    (forall k f m, (k < T)%nat -> first_of (d_id d) (Z.of_nat k) f -> nth k starts NInf = Fin m ->
                   m <= nth f (d_logl d) 0) ->
    exists tmm, process_dynesty_run d w =
      (Ok (mkRun (d_logl d) (d_samples d) s (Some (d_id d)) (Some tmm) None None), w) /\
      map fst tmm = starts /\ forall k, (k < T)%nat -> ends_at (d_logl d) (d_id d) k (snd (nth k tmm (NInf, 0))).
Proof.
  intros E d T starts s w Hlab Hnl Hs Hsum Hst Hlen Hon H0 Hpos Hlast Hin Hlow.
  eexists. split; [eapply dyn_samples_n; eauto|]. destruct Hst as [S1 _]. split.
  - apply map_fst_combine. rewrite map_length, finals_length. auto.
  - intros k Hk. eapply tmm_ends; eauto.
Qed.
Print Assumptions C14_samples_n.

(** Two threads from the whole prior and one more from logl 2, ending at 5:
    fails without samples_n, and works with it. *)
Definition dyn_dynamic (sn : option (list Z)) : dynesty :=
  mkDyn [1; 2; 3; 5; 6] [[10]; [20]; [30]; [50]; [60]] [0; 1; 2; 2; 0] None [2; 1]
        [0; 0; 1; 1; 0]%nat [NInf; Fin 2] sn.
Example C14_example : forall sn, let d := dyn_dynamic sn in
    labelled (d_logl d) (d_samples d) (d_id d) 3 /\
    fold_right Z.add 0 (d_batch_nlive d) = Z.of_nat 3 /\
    batch_starts (d_id d) (d_samples_batch d) (d_batch_bounds d) 3 [NInf; NInf; Fin 2] /\
    (length (filter (exactly_on (nth 0 (d_logl d) 0%Z)) [NInf; NInf; Fin 2]) <= 1)%nat /\
    (exists m, In (Fin m) [NInf; NInf; Fin 2] /\ nth 0 (d_logl d) 0 < m).
Proof.
  intros sn d. split; [|split; [reflexivity|split; [|split; [simpl; lia|exists 2; simpl; split; [auto|lia]]]]].
  - split; [discriminate|]. split; [reflexivity|]. split; [reflexivity|].
    split; [repeat (constructor; try lia)|]. simpl. lia.
  - split; [reflexivity|]. intros k f Hk (F1 & F2 & F3). simpl in F1, F2.
    destruct k as [|[|[|k]]]; try lia; destruct f as [|[|[|[|[|f]]]]]; simpl in *; try lia; eexists; split; reflexivity.
Qed.
Example C14_example_result : forall w : world (script_env []),
    fst (process_dynesty_run (dyn_dynamic None) w) = Raise AssertionError /\
    fst (process_dynesty_run (dyn_dynamic (Some [2; 2; 2; 2; 1])) w) =
    Ok (mkRun [1; 2; 3; 5; 6] [[10]; [20]; [30]; [50]; [60]] [2; 2; 2; 2; 1] (Some [0; 1; 2; 2; 0])
              (Some [(NInf, 6); (NInf, 2); (Fin 2, 5)]) None None).
Proof. intros [r k]. vm_compute. split; reflexivity. Qed.

(** ** C24 for dynesty *)
Theorem C24_dynesty : forall E d (w : world E) r w',
    process_dynesty_run d w = (Ok r, w') ->
    (forall x, In x (nlive_array r) -> 1 <= x) /\ nlive_array r <> [] /\ last (nlive_array r) 0 = 1.
Proof. exact dyn_positive. Qed.
Print Assumptions C24_dynesty.
