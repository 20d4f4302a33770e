(** C86: the table of run_list_error_summary. *)
From Coq Require Import Reals String Ascii Sorted.
From Verif Require Import Base ModelRun ModelBoot ModelParallel ModelReal ModelStats Envs
     Spec SpecRun SpecReal ProofBase ProofMonad ProofDet ProofRun ProofBoot
     ProofReal ProofInterp ProofParallel ProofStats PropParallel PropEstimators PropErrors PropSummary PropTables
     ModelFrames ProofFrames PropFrames PropGroups PropErrTable.
Local Open Scope string_scope.
Local Open Scope list_scope.
Local Open Scope nat_scope.

(** ** The table of run_list_error_summary *)
Lemma pairwise_length : forall A B (dist : A -> A -> B) l, length (pairwise dist l) = npairs (length l).
Proof.
  intros A B dist [|d l]; [reflexivity|]. destruct (C42_pairwise A B dist (d :: l) d) as (_ & _ & _ & H). unfold npairs.
  rewrite <- H. rewrite Nat.mul_comm, Nat.div_mul; auto.
Qed.
Lemma pair_columns_shape : forall (dist : list fl -> list fl -> list fl) k nest t,
    length (pair_columns dist k nest [] t) = nest /\
    Forall (fun c => length c = npairs (length t)) (pair_columns dist k nest [] t).
Proof.
  intros. unfold pair_columns. rewrite map_length, seq_length. split; auto. apply Forall_map, Forall_forall. intros j _.
  rewrite map_length, pairwise_length. unfold cells. rewrite map_length. auto.
Qed.
Lemma frames_shape : forall E srt dist l n tp bsd runs p1 p2 p3 (w : world E) frames,
    Forall (fun p => schedules p (length runs)) [p1; p2; p3] -> 2 <= length runs ->
    fst (run_list_error_values p1 p2 p3 srt dist l n tp bsd runs w) = Ok frames -> error_frames (length l) frames.
Proof.
  intros E srt dist l n tp bsd runs p1 p2 p3 w frames Hp H2 Hf.
  set (gb := fun r => fst (run_bootstrap_values srt r l false true n (default_seeds n) w)).
  set (gt := fun r => fst (run_thread_values (gv srt l) r w)).
  rewrite (run_list_pure srt dist l n gb gt) in Hf
    by (intros; first [apply det_value, det_bootstrap_values|apply det_value, det_thread_values]).
  unfold pure_frames in Hf.
  assert (Hlen : forall A B (g : A -> res B) xs o v, mapM (at_index g xs) o = Ok v -> length v = length o).
  { clear. intros A B g xs o v H. apply mapM_F2, F2_length in H. auto. }
  rewrite Forall_forall in Hp.
  assert (Ho : forall p, In p [p1; p2; p3] -> length (order_of p (length runs)) = length runs).
  { intros p Hin. specialize (Hp p Hin). destruct p as [p|]; cbn in *.
    - apply Permutation_length in Hp. rewrite seq_length in Hp. auto.
    - apply seq_length. }
  destruct (pure_base _ _ _ _ _ _) as [(v & b)|] eqn:Hb; [|discriminate]. cbn [rbind fst snd] in Hf.
  assert (Hvb : length v = length runs /\ length b = length runs).
  { unfold pure_base in Hb. destruct (mapM (at_index (gv srt l) _) _) as [v0|] eqn:Hv0; [|discriminate]. cbn [rbind] in Hb.
    destruct (nonempty ValueError v0) as [v1|] eqn:Hv1; [|discriminate]. cbn [rbind] in Hb. apply nonempty_ok in Hv1 as (-> & _).
    destruct (mapM (at_index gb _) _) as [b0|] eqn:Hb0; [|discriminate]. cbn [rbind] in Hb.
    destruct (nonempty KeyError b0) as [b1|] eqn:Hb1; [|discriminate]. cbn [rbind] in Hb. apply nonempty_ok in Hb1 as (-> & _).
    destruct (nonempty KeyError l); [|discriminate]. cbn [rbind] in Hb. injection Hb as <- <-.
    rewrite (Hlen _ _ _ _ _ _ Hv0), (Hlen _ _ _ _ _ _ Hb0), !Ho by (cbn; tauto). auto. }
  destruct Hvb as (Hlv & Hlb).
  assert (Hnp : forall k, 2 <= k -> 0 < npairs k).
  { intros k Hk. unfold npairs. apply Nat.div_str_pos. nia. }
  assert (G : forall t, (tp = true -> length t = length runs) -> error_frames (length l) (frames_of dist l tp bsd v b t)).
  { intros t Ht. unfold frames_of. apply error_frames_intro.
    - destruct tp; eauto.
    - destruct bsd; [|auto]. right. cbn [map]. eauto.
    - constructor; [|constructor]; cbn [fst snd].
      + split; [lia|]. split; [apply rows_of_length|apply rows_of_cols].
      + rewrite map_length. split; [lia|]. split; [apply rows_of_length|].
        eapply Forall_impl; [|apply rows_of_cols]. intros c Hc. rewrite map_length in Hc. auto.
      + apply Forall_app. split.
        * destruct tp; [|constructor]. constructor; [|constructor]. cbn [fst snd].
          destruct (pair_columns_shape dist 0 (length l) (map (rows_of (length l)) t)) as (S1 & S2).
          rewrite map_length in S2. split; [apply Hnp; rewrite Ht; auto|]. split; auto.
        * destruct bsd; [|constructor]. apply Forall_map, Forall_forall. intros d _. cbn [fst snd].
          destruct (pair_columns_shape dist d (length l) b) as (S1 & S2). split; [apply Hnp; lia|]. split; auto. }
  destruct tp.
  - destruct (pure_threads gt runs _) as [t|] eqn:Htt; [|discriminate]. cbn [rbind] in Hf. injection Hf as <-.
    apply pure_threads_inv, Hlen in Htt. rewrite Ho in Htt by (cbn; tauto). apply G. auto.
  - cbn [rbind] in Hf. injection Hf as <-. apply G. discriminate.
Qed.
(** All rows of run_list_error_summary, for any schedules of the calls in
    parallel. *)
Theorem C86_run_list : forall E (norm : normals E) py3 p1 p2 p3 srt dist l n tp bsd labels tv it rm runs s (w w' : world E),
    Forall (fun p => schedules p (length runs)) [p1; p2; p3] -> 2 <= length runs ->
    run_list_error_summary norm py3 p1 p2 p3 srt dist l n tp bsd tv rm runs w = (Ok s, w') ->
    (it = true -> tv <> None) ->
    exists first, run_list_error_frame norm py3 p1 p2 p3 srt dist l n tp bsd labels tv it rm runs w = (Ok (error_table first s), w') /\
      (it = true -> exists t, tv = Some t /\ first = [t]) /\ (it = false -> first = []) /\
      (rm = true <-> e_imp_rmse s <> None) /\
      map fst (e_groups s) = [CValues; CBsStd] ++ (if tp then [CThreadKs] else []) ++ (if bsd then [CBsDist 1; CBsDist 2; CBsDist 3] else []).
Proof.
  intros E norm py3 p1 p2 p3 srt dist l n tp bsd labels tv it rm runs s w w' Hp H2 H Hit.
  unfold run_list_error_summary, run_list_error_frame in *. unfold wbind in H |- *.
  pose proof (frames_shape E srt dist l n tp bsd runs p1 p2 p3 w) as Hs.
  destruct (run_list_error_values p1 p2 p3 srt dist l n tp bsd runs w) as [[frames|] w1] eqn:Ef; [|discriminate].
  specialize (Hs frames Hp H2 eq_refl).
  destruct (C86_error_table E norm py3 labels (length l) frames tv it rm s w1 w' Hs H) as (C1 & _ & C2).
  destruct (C2 Hit) as (first & C3 & C4 & C5). exists first. repeat split; auto; try apply C1.
  assert (Hm : map fst (e_groups s) = map fst frames).
  { clear - H. unfold error_values_summary in H. unfold wbind at 1, wlift at 1 in H.
    destruct (mapM _ frames) as [g|] eqn:Eg; [|discriminate].
    assert (K : e_groups s = g).
    { set (nsim := Z.to_nat 1000000) in *. clearbody nsim. unfold wbind at 1, wlift at 1 in H. destruct (find_calc CValues g); [|discriminate].
      unfold wbind at 1, wlift at 1 in H. destruct (find_calc CBsStd g); [|discriminate].
      unfold wbind at 1 in H. destruct (implementation_std _ _ _ _ _ _ _ _) as [[i|] w2]; [|discriminate].
      unfold wbind at 1 in H. match type of H with (let (_, _) := ?X in _) = _ => destruct X as [[i2|] w3] end; [|discriminate]. injection H as <- _. auto. }
    rewrite K. apply mapM_F2 in Eg. clear - Eg. induction Eg as [|(c & (n & cols)) g fr gs Hg Eg IH]; auto.
    destruct (summary_df py3 n cols tv rm); [|discriminate]. injection Hg as <-. cbn. f_equal. auto. }
  rewrite Hm. clear - Ef.
  set (gb := fun r => fst (run_bootstrap_values srt r l false true n (default_seeds n) w)).
  set (gt := fun r => fst (run_thread_values (gv srt l) r w)).
  assert (Hf : fst (run_list_error_values p1 p2 p3 srt dist l n tp bsd runs w) = Ok frames) by (rewrite Ef; auto).
  rewrite (run_list_pure srt dist l n gb gt) in Hf
    by (intros; first [apply det_value, det_bootstrap_values|apply det_value, det_thread_values]).
  unfold pure_frames in Hf. destruct (pure_base _ _ _ _ _ _) as [vb|]; [|discriminate]. cbn [rbind] in Hf.
  destruct (if tp then _ else _) as [t|]; [|discriminate]. injection Hf as <-. unfold frames_of.
  destruct tp, bsd; reflexivity.
Qed.
Print Assumptions C86_run_list.
(** The columns of the table of C43's example, with true values. *)
Example C86_example : forall dist (norm : normals (script_env [])), exists s w' table,
    run_list_error_summary norm true None (Some sched_210) (Some sched_210) r_isort dist [CountSamples] 2 true true
           (Some [Some 3%R]) true [run_bs; run_bs; run_bs] w_none = (Ok s, w') /\
    run_list_error_frame norm true None (Some sched_210) (Some sched_210) r_isort dist [CountSamples] 2 true true
           (fun _ => ["0"; "1"; "2"]) (Some [Some 3%R]) true true [run_bs; run_bs; run_bs] w_none = (Ok table, w') /\
    map fst table =
      ["true values"; "value"] :: flat_map (fun c => [[c; "value"]; [c; "uncertainty"]])
      ["values mean"; "values std"; "values rmse"; "bootstrap std mean"; "implementation std"; "implementation std frac";
       "implementation rmse"; "implementation rmse frac"; "thread ks pvalue mean"; "bootstrap ks distance mean";
       "bootstrap energy distance mean"; "bootstrap earth mover distance mean"].
Proof.
  intros dist norm. destruct (C43_example dist norm) as (s & Hs & H).
  set (run := run_list_error_summary _ _ _ _ _ _ _ _ _ _ _ _ _ _) in *.
  destruct (run w_none) as [r w'] eqn:E. cbn [fst] in H. subst r. exists s, w'.
  destruct (C86_run_list _ norm true None (Some sched_210) (Some sched_210) r_isort dist [CountSamples] 2 true true
              (fun _ => ["0"; "1"; "2"]) (Some [Some 3%R]) true true [run_bs; run_bs; run_bs] s w_none w' Hs ltac:(cbn; lia) E ltac:(discriminate))
    as (first & T & T1 & _ & T2 & T3).
  exists (error_table first s). split; auto. split; auto.
  destruct (T1 eq_refl) as (t & _ & ->). destruct s as [g i1 [i2|]]; [|destruct T2 as [T2 _]; exfalso; apply (T2 eq_refl); reflexivity].
  cbn [e_groups] in T3.
  destruct g as [|[? ?] [|[? ?] [|[? ?] [|[? ?] [|[? ?] [|[? ?] [|]]]]]]]; try discriminate T3. cbn in T3.
  injection T3 as -> -> -> -> -> ->. reflexivity.
Qed.
