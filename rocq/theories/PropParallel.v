(** C15 - C17, C42, C44, C45: parallel_apply, parallel_map, batch processing
    and the data frames made with them.

    A function given to the workers is [free] of the world when its result does
    not depend on the random state or on earlier warnings; by C08 this holds of
    the processing functions. *)
From Verif Require Import Base ModelRun ModelData ModelParallel Envs ProofBase ProofMonad ProofDet
     Spec SpecRun ProofRun ProofParallel PropCheck PropCombine.

(** The schedule completes every task once. *)
Definition schedules {E} (par : option (sched E)) (n : nat) : Prop :=
  match par with None => True | Some s => Permutation (s_order s) (seq 0 n) end.

(** ** C45 *)

(** parallel_map gives the values in the order of the arguments, for every
    schedule and chunk size, and otherwise raises the error of the first
    argument which fails. *)
Theorem C45_parallel_map : forall E A B (par : option (sched E)) pw k (f : A -> W E B) g xs w,
    (forall x w, fst (f x w) = g x) -> (par <> None -> (0 < k)%nat) ->
    match fst (parallel_map par pw k f xs w) with
    | Ok ys => Forall2 (fun x y => g x = Ok y) xs ys
    | Raise e => exists l1 x l2, xs = l1 ++ x :: l2 /\ g x = Raise e /\
                                 (forall y, In y l1 -> exists v, g y = Ok v)
    end.
Proof.
  intros E A B par pw k f g xs w Hf Hk. rewrite (parallel_map_free _ _ _ _ _ _ _ _ _ _ Hf Hk).
  destruct (mapM g xs) eqn:Hm; [apply mapM_Ok|apply mapM_Raise]; auto.
Qed.
Print Assumptions C45_parallel_map.

(** parallel_apply: the k-th value is that of the argument finished k-th (the
    arguments are taken in order when parallel=False); if it raises then the
    error is that of some argument.  The caller's random state is unchanged. *)
Theorem C45_parallel_apply : forall E A B (par : option (sched E)) pw (f : A -> W E B) g xs w,
    (forall x w, fst (f x w) = g x) -> schedules par (length xs) ->
    match fst (parallel_apply par pw f xs w) with
    | Ok ys =>
        let order := match par with None => seq 0 (length xs) | Some s => s_order s end in
        Forall2 (fun i y => exists x, nth_error xs i = Some x /\ g x = Ok y) order ys /\
        (exists zs, Permutation ys zs /\ Forall2 (fun x z => g x = Ok z) xs zs)
    | Raise e => exists x, In x xs /\ g x = Raise e
    end /\
    (par <> None -> snd (parallel_apply par pw f xs w) = w).
Proof.
  intros E A B par pw f g xs w Hf Hs. rewrite (parallel_apply_free _ _ _ _ _ _ _ _ _ Hf).
  assert (Hp : Permutation (order_of par (length xs)) (seq 0 (length xs))).
  { destruct par; [apply Hs|apply Permutation_refl]. }
  split.
  - destruct (mapM (at_index g xs) (order_of par (length xs))) as [ys|e] eqn:Hm.
    + apply mapM_Ok in Hm. cbn zeta. fold (order_of par (length xs)).
      split.
      * eapply Forall2_imp; [|apply Hm]. cbn. unfold at_index. intros i y Hi.
        destruct (nth_error xs i); [eauto|discriminate].
      * assert (Hz : exists zs, Permutation ys zs /\
                  Forall2 (fun i y => at_index g xs i = Ok y) (seq 0 (length xs)) zs).
        { clear - Hm Hp. revert ys Hm. induction Hp; intros ys Hm.
          - exists ys. auto.
          - inversion Hm; subst. destruct (IHHp _ H3) as (zs & Z1 & Z2).
            exists (y :: zs). split; auto.
          - inversion Hm as [|? ? ? ? M1 M2]; subst. inversion M2; subst.
            exists (y1 :: y0 :: l'0). split; [apply perm_swap|]. auto.
          - destruct (IHHp1 _ Hm) as (zs & Z1 & Z2). destruct (IHHp2 _ Z2) as (zs' & Z3 & Z4).
            exists zs'. split; auto. eapply perm_trans; eauto. }
        destruct Hz as (zs & Z1 & Z2). exists zs. split; auto.
        apply mapM_Ok. rewrite <- mapM_at_seq. apply mapM_Ok. auto.
    + apply mapM_Raise in Hm as (l1 & i & l2 & Hl & Hr & _).
      assert (Hi : In i (seq 0 (length xs))).
      { apply (Permutation_in _ Hp). rewrite Hl. apply in_elt. }
      apply in_seq in Hi. unfold at_index in Hr.
      destruct (nth_error xs i) as [x|] eqn:Hx.
      * exists x. split; auto. eapply nth_error_In; eauto.
      * apply nth_error_None in Hx. lia.
  - intros Hn. destruct par; [reflexivity|congruence].
Qed.
Print Assumptions C45_parallel_apply.

(** Squares of 1, 2, 3 finished in the order 2, 0, 1. *)
Definition sched_201 : sched (script_env []) :=
  @mkSched (script_env []) [2; 0; 1]%nat (fun _ => []).
Example C45_example : forall w,
    parallel_apply (Some sched_201) true (fun x => wret (x * x)) [1; 2; 3] w = (Ok [9; 1; 4], w) /\
    parallel_map (Some sched_201) true 2 (fun x => wret (x * x)) [1; 2; 3] w = (Ok [1; 4; 9], w) /\
    schedules (Some sched_201) (length [1; 2; 3]).
Proof.
  intros w. repeat split. cbn.
  apply Permutation_sym. apply (Permutation_cons_app [2%nat] [1%nat]).
  apply perm_swap.
Qed.
(** With two failing tasks the error raised depends on the schedule. *)
Example C45_example_raise :
  let f x := if x =? 2 then wraise ValueError else if x =? 3 then wraise KeyError else wret x in
  forall w, fst (parallel_apply (Some sched_201) true f [1; 2; 3] w) = Raise KeyError /\
            fst (parallel_map (Some sched_201) true 1 f [1; 2; 3] w) = Raise ValueError.
Proof. intros f w. split; reflexivity. Qed.

(** ** C15 *)

Theorem C15_batch_order : forall E (par : option (sched E)) pw proc handled outcome roots w,
    (forall z w, fst (proc z w) = outcome z) ->
    NoDup roots -> schedules par (length roots) ->
    (forall z r, In z roots -> outcome z = Ok r ->
                 exists o, output r = Some o /\ o_root o = Some z) ->
    (forall z e, In z roots -> outcome z = Raise e -> handled e = true) ->
    exists msgs, fst (batch_process_data par pw proc handled roots w) =
      Ok (msgs, flat_map (fun z => match outcome z with Ok r => [r] | Raise _ => [] end) roots).
Proof.
  intros E par pw proc handled outcome roots w H1 H2 H3 H4 H5.
  rewrite (batch_ok E par pw proc handled outcome roots w); auto.
  - eexists. f_equal. f_equal. clear. induction roots as [|z t IH]; cbn; auto.
    unfold item_of at 1. destruct (outcome z); cbn; f_equal; auto.
  - destruct par; [apply H3|apply Permutation_refl].
Qed.
Print Assumptions C15_batch_order.

(** For PolyChord runs: [rows z] is what loading the dead-birth file of root
    [z] gives and [stats z] what its stats file does. *)
Definition polychord_of {E} (rows : Z -> res (list (list Z))) (ps : bool)
           (stats : Z -> res outdict) (da dw : bool) (z : Z) : W E run :=
  let* x := wlift (rows z) in process_polychord_run z x ps (stats z) da dw.
Theorem C15_polychord : forall E rows ps stats da dw handled roots,
    NoDup roots ->
    (forall z o, stats z = Ok o -> o_root o = Some z) ->
    forall par1 par2 pw1 pw2 (w1 w2 : world E) l1 l2 m1 m2,
      schedules par1 (length roots) -> schedules par2 (length roots) ->
      fst (batch_process_data par1 pw1 (polychord_of rows ps stats da dw) handled roots w1) = Ok (m1, l1) ->
      fst (batch_process_data par2 pw2 (polychord_of rows ps stats da dw) handled roots w2) = Ok (m2, l2) ->
      l1 = l2 /\ m1 = m2 /\
      exists good, StronglySorted (fun a b => exists i j, (i < j)%nat /\ nth_error roots i = Some a /\
                                                          nth_error roots j = Some b) good /\
        Forall2 (fun z r => fst (polychord_of rows ps stats da dw z w1) = Ok r) good l1 /\
        (forall z, In z roots -> In z good \/
           exists e, fst (polychord_of rows ps stats da dw z w1) = Raise e /\ handled e = true).
Proof.
  intros E rows ps stats da dw handled roots Hnd Hst par1 par2 pw1 pw2 w1 w2 l1 l2 m1 m2 S1 S2 B1 B2.
  set (proc := polychord_of rows ps stats da dw) in *.
  assert (Hdet : forall z, det (E := E) (proc z)).
  { intros z. unfold proc, polychord_of. apply det_bind; [apply det_lift|intros]. apply det_polychord. }
  set (outcome := fun z => fst (proc z w1)) in *.
  assert (Hfree : forall z w, fst (proc z w) = outcome z).
  { intros z w. destruct (det_spec _ _ _ (Hdet z)) as [Hd _]. apply Hd. }
  assert (P1 : Permutation (order_of par1 (length roots)) (seq 0 (length roots))).
  { destruct par1; [apply S1|apply Permutation_refl]. }
  assert (P2 : Permutation (order_of par2 (length roots)) (seq 0 (length roots))).
  { destruct par2; [apply S2|apply Permutation_refl]. }
  assert (Hh : forall z e, In z roots -> outcome z = Raise e -> handled e = true).
  { intros z e Hz He. destruct (handled e) eqn:Hh; auto. exfalso.
    destruct (batch_unhandled E par1 pw1 proc handled outcome roots w1 z e Hfree P1 Hz He Hh)
      as (z' & e' & _ & _ & _ & Hr). congruence. }
  assert (Hroot : forall z r, In z roots -> outcome z = Ok r ->
                 exists o, output r = Some o /\ o_root o = Some z).
  { intros z r _ Ho. unfold outcome, proc, polychord_of in Ho.
    destruct ((let* x := wlift (rows z) in process_polychord_run z x ps (stats z) da dw) w1)
      as [x w'] eqn:Hx. cbn [fst] in Ho. subst x.
    apply wbind_Ok in Hx as (x & w2' & _ & Hx). unfold process_polychord_run in Hx.
    apply wbind_Ok in Hx as (r0 & w3 & _ & Hx). cbn zeta in Hx.
    destruct ps.
    - destruct (stats z) as [o|e] eqn:Hs.
      + injection Hx as <- _. exists o. split; [reflexivity|auto].
      + destruct (caught_stats e); [|discriminate]. apply wbind_Ok in Hx as (? & ? & _ & Hx).
        injection Hx as <- _. eexists. split; reflexivity.
    - injection Hx as <- _. eexists. split; reflexivity. }
  assert (K1 := batch_ok E par1 pw1 proc handled outcome roots w1 Hfree Hnd P1 Hroot Hh).
  assert (K2 := batch_ok E par2 pw2 proc handled outcome roots w2 Hfree Hnd P2 Hroot Hh).
  rewrite B1 in K1. rewrite B2 in K2. injection K1 as M1 L1. injection K2 as M2 L2.
  split; [congruence|]. split; [congruence|].
  exists (filter (fun z => match outcome z with Ok _ => true | Raise _ => false end) roots).
  split; [|split].
  - assert (Hs : StronglySorted (fun a b => exists i j, (i < j)%nat /\ nth_error roots i = Some a /\
                                                          nth_error roots j = Some b) roots).
    { clear. assert (H : forall l2 l1 : list Z, StronglySorted (fun a b => exists i j, (i < j)%nat /\
          nth_error (l1 ++ l2) i = Some a /\ nth_error (l1 ++ l2) j = Some b) l2).
      { induction l2 as [|x t IH]; intros l1; constructor.
        - specialize (IH (l1 ++ [x])). rewrite <- app_assoc in IH. auto.
        - rewrite Forall_forall. intros y Hy. apply In_nth_error in Hy as [j Hj].
          exists (length l1), (S (length l1) + j)%nat. split; [lia|]. split.
          + rewrite nth_error_app2, Nat.sub_diag by lia. auto.
          + rewrite nth_error_app2 by lia.
            replace (S (length l1) + j - length l1)%nat with (S j) by lia. auto. }
      apply (H roots []). }
    set (R := fun a b : Z => _) in *. clearbody R. clear - Hs.
    induction Hs as [|x t Hs IH Hf]; cbn; [constructor|].
    destruct (outcome x); auto. constructor; auto. rewrite Forall_forall in *.
    intros y Hy. apply filter_In in Hy. apply Hf. tauto.
  - rewrite L1. clear - outcome. induction roots as [|z t IH]; cbn; [constructor|].
    unfold item_of at 1. fold (outcome z).
    destruct (outcome z) as [r|e] eqn:Ho; cbn [app]; auto.
  - intros z Hz. destruct (outcome z) as [r|e] eqn:Ho.
    + left. apply filter_In. rewrite Ho. auto.
    + right. exists e. split; auto. eapply Hh; eauto.
Qed.
Print Assumptions C15_polychord.

(** Three roots, the second of which has no files; finished in the order
    2, 0, 1. *)
Definition rows_ex (z : Z) : res (list (list Z)) :=
  if z =? 1 then Ok [[10; 5; -9]] else if z =? 3 then Ok [[10; 6; -9]] else Raise OSError.
Definition run_ex (x root : Z) : run :=
  mkRun [x] [[10]] [1] (Some [0]) (Some [(NInf, x)]) (Some (mkOut None None (Some root) [])) None.
Example C15_example : forall r,
    let w := @mkW (script_env []) r [] in
    fst (batch_process_data (Some sched_201) true
           (polychord_of rows_ex false (fun _ => Raise OSError) false false)
           (fun e => match e with OSError => true | _ => false end) [1; 2; 3] w) =
    Ok ([mkMsg OSError 1 3 (Some [1%nat])], [run_ex 5 1; run_ex 6 3]).
Proof. intros r. vm_compute. reflexivity. Qed.

(** ** C16 *)

(** The messages have different errors, one for every error which occurred.
    Each gives the number of roots failing with it and, unless all did, their
    positions in increasing order. *)
Theorem C16_batch_report : forall E (par : option (sched E)) pw proc handled outcome roots w,
    (forall z w, fst (proc z w) = outcome z) ->
    NoDup roots -> schedules par (length roots) ->
    (forall z r, In z roots -> outcome z = Ok r ->
                 exists o, output r = Some o /\ o_root o = Some z) ->
    (forall z e, In z roots -> outcome z = Raise e -> handled e = true) ->
    exists msgs runs, fst (batch_process_data par pw proc handled roots w) = Ok (msgs, runs) /\
      NoDup (map m_error msgs) /\
      (forall z e, In z roots -> outcome z = Raise e -> exists m, In m msgs /\ m_error m = e) /\
      forall m, In m msgs -> exists inds,
        StronglySorted lt inds /\ inds <> [] /\
        (forall i, In i inds <-> exists z, nth_error roots i = Some z /\ outcome z = Raise (m_error m)) /\
        m_count m = length inds /\ m_total m = length roots /\
        m_inds m = (if (length inds <? length roots)%nat then Some inds else None).
Proof.
  intros E par pw proc handled outcome roots w H1 H2 H3 H4 H5.
  rewrite (batch_ok E par pw proc handled outcome roots w); auto.
  2:{ destruct par; [apply H3|apply Permutation_refl]. }
  eexists _, _. split; [reflexivity|].
  pose proof (collect_errors_report (map (item_of outcome) roots) [] []) as Hr.
  cbn [app length] in Hr. rewrite map_length in Hr.
  assert (Hf : forall e i, fails_at (map (item_of outcome) roots) e i <->
                           exists z, nth_error roots i = Some z /\ outcome z = Raise e).
  { intros e i. unfold fails_at. rewrite nth_error_map. unfold option_map, item_of. split.
    - intros (z & Hz). destruct (nth_error roots i) as [z'|]; [|discriminate].
      exists z'. split; auto. destruct (outcome z'); [discriminate|]. congruence.
    - intros (z & -> & ->). eauto. }
  destruct Hr as (R1 & R2 & R3).
  { split; [constructor|]. split; [intros e l []|intros; lia]. }
  split; [|split].
  - rewrite map_map. rewrite (map_ext _ fst); auto. intros [e l]. reflexivity.
  - intros z e Hz Ho. destruct (In_nth_error _ _ Hz) as [i Hi].
    destruct (R3 e i) as (l & Hl).
    + apply nth_error_Some. congruence.
    + apply Hf. eauto.
    + exists (message_of (length roots) (e, l)). split; [apply in_map; auto|reflexivity].
  - intros m Hm. apply in_map_iff in Hm as ([e l] & <- & Hl).
    destruct (R2 _ _ Hl) as (S1 & S2 & S3). exists l. split; auto. split; auto.
    assert (S4 : forall i, In i l <-> exists z, nth_error roots i = Some z /\ outcome z = Raise e).
    { intros i. rewrite S3, Hf. split; [tauto|]. intros (z & Hz & Ho). split; eauto.
      apply nth_error_Some. congruence. }
    cbn [message_of m_error m_count m_total m_inds]. split; auto. split; auto. split; auto.
    assert (Hle : (length l <= length roots)%nat).
    { rewrite <- (seq_length (length roots) 0). apply NoDup_incl_length.
      - clear - S1. induction S1 as [|x t S IH F]; constructor; auto.
        rewrite Forall_forall in F. intros Hx. specialize (F x Hx). lia.
      - intros i Hi. apply S3 in Hi. apply in_seq. lia. }
    destruct (Nat.eqb_spec (length l) (length roots)) as [He|He];
      destruct (Nat.ltb_spec (length l) (length roots)); auto; lia.
Qed.
Print Assumptions C16_batch_report.

(** An error which is not to be handled is raised. *)
Theorem C16_batch_unhandled : forall E (par : option (sched E)) pw proc handled outcome roots w z0 e0,
    (forall z w, fst (proc z w) = outcome z) -> schedules par (length roots) ->
    In z0 roots -> outcome z0 = Raise e0 -> handled e0 = false ->
    exists z e, In z roots /\ outcome z = Raise e /\ handled e = false /\
      fst (batch_process_data par pw proc handled roots w) = Raise e.
Proof.
  intros E par pw proc handled outcome roots w z0 e0 H1 H2 H3 H4 H5.
  eapply batch_unhandled; eauto. destruct par; [apply H2|apply Permutation_refl].
Qed.
Print Assumptions C16_batch_unhandled.
Example C16_example_unhandled : forall w,
    fst (batch_process_data (Some sched_201) true
           (polychord_of rows_ex false (fun _ => Raise OSError) false false)
           (fun e => false) [1; 2; 3] w) = Raise OSError.
Proof. intros [r l]. vm_compute. reflexivity. Qed.
(** All fail: no indexes are printed. *)
Example C16_example_all : forall w,
    fst (batch_process_data (Some sched_201) true
           (polychord_of rows_ex false (fun _ => Raise OSError) false false)
           (fun e => true) [4; 2; 5] w) = Ok ([mkMsg OSError 3 3 None], []).
Proof. intros [r l]. vm_compute. reflexivity. Qed.

(** ** C17 *)

Theorem C17_repeated_roots_refuted :
  ~ (forall E (par : option (sched E)) pw proc handled outcome roots w,
        (forall z w, fst (proc z w) = outcome z) -> schedules par (length roots) ->
        (forall z r, In z roots -> outcome z = Ok r ->
                     exists o, output r = Some o /\ o_root o = Some z) ->
        (forall z e, In z roots -> outcome z = Raise e -> handled e = true) ->
        exists msgs, fst (batch_process_data par pw proc handled roots w) =
          Ok (msgs, flat_map (fun z => match outcome z with Ok r => [r] | Raise _ => [] end) roots)).
Proof.
  intros H.
  destruct (H (script_env []) None true (fun z => wret (run_ex 5 z)) (fun _ => true)
              (fun z => Ok (run_ex 5 z)) [1; 3; 1] (@mkW (script_env []) [] [])) as [msgs Hm].
  - intros; reflexivity.
  - exact I.
  - intros z r _ Hr. injection Hr as <-. eexists. split; reflexivity.
  - intros; discriminate.
  - vm_compute in Hm. discriminate.
Qed.
Print Assumptions C17_repeated_roots_refuted.

(** What the code does with any list of roots, repeats or not: the runs come
    back in the order of the first places of their roots, so that repeated
    roots are moved together. *)
Theorem C17_repeated_roots : forall E (par : option (sched E)) pw proc handled outcome roots w,
    (forall z w, fst (proc z w) = outcome z) -> schedules par (length roots) ->
    (forall z r, In z roots -> outcome z = Ok r ->
                 exists o, output r = Some o /\ o_root o = Some z) ->
    (forall z e, In z roots -> outcome z = Raise e -> handled e = true) ->
    exists msgs zs,
      fst (batch_process_data par pw proc handled roots w) =
        Ok (msgs, flat_map (fun z => match outcome z with Ok r => [r] | Raise _ => [] end) zs) /\
      Permutation zs roots /\
      (forall l1 z l2 z' l3, zs = l1 ++ z :: l2 ++ z' :: l3 ->
         exists k k', nth_error roots k = Some z /\ nth_error roots k' = Some z' /\ (k <= k')%nat /\
           (forall j, nth_error roots j = Some z -> (k <= j)%nat) /\
           (forall j, nth_error roots j = Some z' -> (k' <= j)%nat)).
Proof.
  intros E par pw proc handled outcome roots w Hf Hs Hr Hh.
  assert (Ho : Permutation (order_of par (length roots)) (seq 0 (length roots)))
    by (destruct par; [apply Hs|apply Permutation_refl]).
  destruct (batch_repeated E par pw proc handled outcome roots w Hf Ho Hr Hh)
    as (zs & P1 & P2 & P3).
  eexists _, zs. split; [|split; auto].
  - rewrite P3. do 2 f_equal. clear. induction zs as [|z t IH]; cbn [map flat_map]; auto.
    rewrite IH. unfold item_of. destruct (outcome z); auto.
  - intros l1 z l2 z' l3 Hz.
    assert (Hi : In z roots) by (apply (Permutation_in _ P1); rewrite Hz; apply in_elt).
    assert (Hi' : In z' roots)
      by (apply (Permutation_in _ P1); rewrite Hz; apply in_or_app; right; right; apply in_elt).
    destruct (index_of_first _ _ Hi) as (k & _ & K). destruct (index_of_first _ _ Hi') as (k' & _ & K').
    exists k, k'. split; [apply K|]. split; [apply K'|]. split; [eapply P2; eauto|].
    destruct K as [_ K]. destruct K' as [_ K']. split; intros j Hj.
    + destruct (Nat.le_gt_cases k j); auto. exfalso. apply (K j); auto.
    + destruct (Nat.le_gt_cases k' j); auto. exfalso. apply (K' j); auto.
Qed.
Print Assumptions C17_repeated_roots.

(** ** C44 *)

Definition run_one : run :=
  mkRun [2; 4] [[20]; [40]] [1; 1] (Some [0; 0]) (Some [(NInf, 4)]) None None.
Definition est_count (r : run) : res (list Z) := Ok [Z.of_nat (length (logl r))].
Definition sched_10 : sched (script_env []) :=
  @mkSched (script_env []) [1; 0]%nat (fun _ => []).

Theorem C44_thread_values_schedule_refuted :
  exists runs (s : sched (script_env [])) w vals,
    (forall r, In r runs -> fst (check_ns_run r false false w) = Ok tt) /\
    Permutation (s_order s) (seq 0 (length runs)) /\
    fst (thread_values_df None est_count runs w) = Ok vals /\
    fst (thread_values_df (Some s) est_count runs w) = Raise AssertionError.
Proof.
  exists [run_two; run_one], sched_10, (@mkW (script_env []) [] []), [[[3]; [1]]; [[2]]].
  split; [|split; [apply perm_swap|split; vm_compute; reflexivity]].
  intros r [<-|[<-|[]]]; vm_compute; reflexivity.
Qed.
Print Assumptions C44_thread_values_schedule_refuted.

(** Exactly when it succeeds: the run which finishes first must have as many
    threads as the first run of the list.  The values are then those of all the
    runs, in order of completion. *)
Theorem C44_thread_values : forall E A (par : option (sched E)) (est : run -> res (list A))
    (h : run -> list A) runs w,
    runs <> [] -> schedules par (length runs) -> (forall r, est r = Ok (h r)) ->
    (forall r, In r runs -> exists labs tmm, consistent r labs tmm) ->
    exists vals first r0 r1 ths0 ths1,
      Forall2 (fun i v => exists r ths, nth_error runs i = Some r /\ fst (get_run_threads r w) = Ok ths /\
                                        v = map h ths)
              match par with None => seq 0 (length runs) | Some s => s_order s end vals /\
      hd_error match par with None => seq 0 (length runs) | Some s => s_order s end = Some first /\
      nth_error runs 0 = Some r0 /\ nth_error runs first = Some r1 /\
      fst (get_run_threads r0 w) = Ok ths0 /\ fst (get_run_threads r1 w) = Ok ths1 /\
      (length ths1 = length ths0 -> fst (thread_values_df par est runs w) = Ok vals) /\
      (length ths1 <> length ths0 -> fst (thread_values_df par est runs w) = Raise AssertionError).
Proof.
  intros E A par est h runs w Hne Hs Hest Hr.
  set (threads := fun r : run => fst (get_run_threads r w)).
  assert (Hvals : forall r labs tmm, consistent r labs tmm -> exists ths,
             threads r = Ok ths /\ length ths = length tmm /\ (0 < length tmm)%nat /\
             forall w' : world E, get_run_threads r w' = (Ok ths, w')).
  { intros r labs tmm Hc. unfold threads.
    exists (map (fun k => nth_thread r labs (Z.of_nat k) (nth k tmm (NInf, 0))) (seq 0 (length tmm))).
    split; [rewrite (get_run_threads_spec E r labs tmm) by auto; reflexivity|].
    rewrite map_length, seq_length. split; auto. split.
    - destruct Hc as (_ & _ & _ & _ & _ & _ & _ & _ & Hin & _).
      destruct tmm; [destruct Hin|cbn; lia].
    - intros w'. apply get_run_threads_spec; auto. }
  assert (Hfree : forall r, In r runs -> forall w' : world E, exists ths, threads r = Ok ths /\
             run_thread_values est r w' = (Ok (map h ths), w')).
  { intros r Hin w'. destruct (Hr r Hin) as (labs & tmm & Hc).
    destruct (Hvals _ _ _ Hc) as (ths & T1 & T2 & T3 & T4). exists ths. split; auto.
    unfold run_thread_values. rewrite (wbind_run _ _ _ _ _ _ _ _ (T4 w')).
    rewrite (mapM_total _ _ est h) by auto. unfold wbind, wlift.
    destruct ths as [|t ths]; [cbn in T2; lia|]. reflexivity. }
  set (val := fun i => match threads (nth i runs run_one) with Ok ths => map h ths | Raise _ => [] end).
  set (order := match par with None => seq 0 (length runs) | Some s => s_order s end).
  assert (Hin : forall i, In i order -> (i < length runs)%nat).
  { intros i Hi. unfold order in Hi. destruct par as [s|].
    - apply (Permutation_in _ Hs) in Hi. apply in_seq in Hi. lia.
    - apply in_seq in Hi. lia. }
  assert (Hval : forall i (w' : world E), (i < length runs)%nat ->
             run_thread_values est (nth i runs run_one) w' = (Ok (val i), w')).
  { intros i w' Hi. destruct (Hfree _ (nth_In runs run_one Hi) w') as (ths & T1 & T3).
    unfold val. rewrite T1. auto. }
  assert (Hpa : exists w', parallel_apply par true (run_thread_values est) runs w = (Ok (map val order), w')).
  { destruct par as [s|]; unfold order.
    - exists w. cbn [parallel_apply]. unfold wlift. f_equal. apply mapM_total. intros i Hi.
      rewrite (nth_error_nth' _ run_one) by (apply Hin; auto). unfold in_worker.
      rewrite (Hval i (mkW (s_state s i) []) (Hin i Hi)). reflexivity.
    - cbn [parallel_apply]. unfold warn, wbind.
      exists (mkW (w_rng w) (WNoParallel :: w_warn w)).
      assert (Hm : map val (seq 0 (length runs)) =
                   map (fun r => match threads r with Ok ths => map h ths | Raise _ => [] end) runs).
      { unfold val. rewrite <- (map_map (fun i => nth i runs run_one)
          (fun r => match threads r with Ok ths => map h ths | Raise _ => [] end)). f_equal.
        clear. induction runs as [|z t IH]; cbn [length seq map nth]; auto.
        f_equal. rewrite <- seq_shift, map_map. cbn. auto. }
      rewrite Hm. apply wmapM_pure. intros r Hri.
      destruct (Hfree r Hri (mkW (w_rng w) (WNoParallel :: w_warn w))) as (ths & -> & ->). auto. }
  destruct Hpa as (w' & Hpa).
  assert (Hall : forall l, (forall j, In j l -> (j < length runs)%nat) ->
      Forall2 (fun i v => exists r ths, nth_error runs i = Some r /\ fst (get_run_threads r w) = Ok ths /\
                                        v = map h ths) l (map val l)).
  { induction l as [|j l IH]; intros Hl; cbn [map]; constructor.
    - assert (Hj : (j < length runs)%nat) by (apply Hl; left; auto).
      destruct (Hfree _ (nth_In runs run_one Hj) w) as (ths & T1 & T3).
      exists (nth j runs run_one), ths. split; [apply nth_error_nth'; auto|]. split; auto.
      unfold val. rewrite T1. auto.
    - apply IH. intros; apply Hl; right; auto. }
  assert (Hord : exists i t, order = i :: t).
  { destruct order as [|i t] eqn:Ho; eauto. exfalso. unfold order in Ho. destruct par as [s|].
    - pose proof (Permutation_length Hs) as Hl. rewrite Ho, seq_length in Hl.
      destruct runs; [congruence|discriminate].
    - destruct runs; [congruence|discriminate]. }
  specialize (Hall order Hin). fold order.
  destruct Hord as (i & t & Ho). clearbody order. subst order.
  assert (Hruns : exists r0 rt, runs = r0 :: rt) by (destruct runs; [congruence|eauto]).
  destruct Hruns as (r0 & rt & Hruns).
  assert (Hi0 : In r0 runs) by (rewrite Hruns; left; auto).
  assert (Hi : (i < length runs)%nat) by (apply Hin; left; auto).
  destruct (Hr r0 Hi0) as (labs0 & tmm0 & H0). destruct (Hr _ (nth_In runs run_one Hi)) as (labs1 & tmm1 & H1).
  destruct (Hvals _ _ _ H0) as (ths0 & T01 & T02 & _). destruct (Hvals _ _ _ H1) as (ths1 & T11 & T12 & _).
  exists (map val (i :: t)), i, r0, (nth i runs run_one), ths0, ths1.
  split; auto. split; auto. split; [rewrite Hruns; auto|]. split; [apply nth_error_nth'; auto|].
  split; auto. split; auto.
  assert (Hlen : length (val i) = length ths1) by (unfold val; rewrite T11, map_length; auto).
  clear Hall Hval. clearbody val.
  unfold thread_values_df. rewrite (wbind_run _ _ _ _ _ _ _ _ Hpa). cbn [map].
  rewrite Hruns. destruct H0 as (_ & C2 & _). rewrite C2, Hlen, <- T02.
  split; intros Heq.
  - rewrite (wbind_run _ _ _ _ _ _ _ _ (wassert_true E _ _ (proj2 (Nat.eqb_eq _ _) Heq))). reflexivity.
  - apply Nat.eqb_neq in Heq. unfold wbind, wassert. rewrite Heq. reflexivity.
Qed.
Print Assumptions C44_thread_values.
Example C44_example : forall w,
    fst (thread_values_df (Some sched_10) est_count [run_two; run_example] w) = Ok [[[3]; [1]]; [[3]; [1]]] /\
    fst (thread_values_df (Some sched_10) est_count [run_two; run_other] w) = Ok [[[1]; [2]]; [[3]; [1]]].
Proof. intros [r l]. split; vm_compute; reflexivity. Qed.

(** ** C42 *)

Definition lex (p q : nat * nat) : Prop :=
  (fst p < fst q \/ (fst p = fst q /\ snd p < snd q))%nat.
Lemma ssorted_app : forall A (R : A -> A -> Prop) l1 l2,
    StronglySorted R l1 -> StronglySorted R l2 -> (forall x y, In x l1 -> In y l2 -> R x y) ->
    StronglySorted R (l1 ++ l2).
Proof.
  induction l1 as [|x t IH]; intros l2 H1 H2 H; cbn [app]; auto.
  apply StronglySorted_inv in H1 as [S F]. constructor.
  - apply IH; auto. intros; apply H; auto. right; auto.
  - apply Forall_app. split; auto. rewrite Forall_forall. intros y Hy. apply H; auto. left; auto.
Qed.

(** One row for each pair (i, j) with j < i, in order, holding the distance. *)
Theorem C42_pairwise : forall A B (dist : A -> A -> B) l d,
    let out := pairwise dist l in
    let n := length l in
    StronglySorted lex (map fst out) /\
    (forall i j, In (i, j) (map fst out) <-> (j < i < n)%nat) /\
    (forall i j v, In ((i, j), v) out -> v = dist (nth i l d) (nth j l d)) /\
    (2 * length out = n * (n - 1))%nat.
Proof.
  intros A B dist l d out n.
  assert (Hc : combine (seq 0 n) l = map (fun i => (i, nth i l d)) (seq 0 n)).
  { unfold n. clear. assert (H : forall l1 l2, combine (seq (length l1) (length l2)) l2 =
      map (fun i => (i, nth i (l1 ++ l2) d)) (seq (length l1) (length l2))).
    { intros l1 l2. revert l1. induction l2 as [|x t IH]; intros l1; cbn [length seq combine map]; auto.
      f_equal.
      - rewrite app_nth2, Nat.sub_diag by lia. auto.
      - specialize (IH (l1 ++ [x])). rewrite app_length in IH. cbn [length] in IH.
        rewrite Nat.add_1_r, <- app_assoc in IH. auto. }
    apply (H [] l). }
  assert (Hout : forall m k, (k + m <= n)%nat ->
      flat_map (fun '(i, x) => flat_map (fun '(j, y) => if (j <? i)%nat then [((i, j), dist x y)] else [])
             (map (fun i => (i, nth i l d)) (seq 0 n))) (map (fun i => (i, nth i l d)) (seq k m)) =
      flat_map (fun i => map (fun j => ((i, j), dist (nth i l d) (nth j l d))) (seq 0 i)) (seq k m)).
  { induction m as [|m IH]; intros k Hk; cbn [seq map flat_map]; auto.
    rewrite IH by lia. f_equal.
    assert (Hsplit : seq 0 n = seq 0 k ++ seq k (n - k)).
    { rewrite <- seq_app. f_equal. lia. }
    rewrite Hsplit, map_app, flat_map_app.
    assert (H1 : forall a b, (a + b <= k)%nat ->
       flat_map (fun '(j, y) => if (j <? k)%nat then [((k, j), dist (nth k l d) y)] else [])
         (map (fun i => (i, nth i l d)) (seq a b)) =
       map (fun j => ((k, j), dist (nth k l d) (nth j l d))) (seq a b)).
    { intros a b. revert a. induction b as [|b IHb]; intros a Hab; cbn [seq map flat_map]; auto.
      rewrite IHb by lia. destruct (Nat.ltb_spec a k); [auto|lia]. }
    assert (H2 : forall a b, (k <= a)%nat ->
       flat_map (fun '(j, y) => if (j <? k)%nat then [((k, j), dist (nth k l d) y)] else [])
         (map (fun i => (i, nth i l d)) (seq a b)) = []).
    { intros a b. revert a. induction b as [|b IHb]; intros a Hab; cbn [seq map flat_map]; auto.
      rewrite IHb by lia. destruct (Nat.ltb_spec a k); [lia|auto]. }
    rewrite H1, H2, app_nil_r by lia. auto. }
  assert (Heq : out = flat_map (fun i => map (fun j => ((i, j), dist (nth i l d) (nth j l d))) (seq 0 i)) (seq 0 n)).
  { unfold out, pairwise. fold n. rewrite Hc. apply Hout. lia. }
  clearbody out. subst out. clear Hout Hc.
  assert (Hin : forall m k i j, In (i, j) (map fst (flat_map (fun i => map (fun j =>
              ((i, j), dist (nth i l d) (nth j l d))) (seq 0 i)) (seq k m))) <-> (j < i /\ k <= i < k + m)%nat).
  { intros m k i j. rewrite in_map_iff. split.
    - intros (p & Hp & Hi). apply in_flat_map in Hi as (i' & Hi' & Hi).
      apply in_map_iff in Hi as (j' & <- & Hj). apply in_seq in Hi', Hj. cbn in Hp.
      injection Hp as -> ->. lia.
    - intros H. exists ((i, j), dist (nth i l d) (nth j l d)). split; auto.
      apply in_flat_map. exists i. split; [apply in_seq; lia|].
      apply in_map_iff. exists j. split; auto. apply in_seq. lia. }
  split; [|split; [|split]].
  - assert (H : forall m k, StronglySorted lex (map fst (flat_map (fun i => map (fun j =>
              ((i, j), dist (nth i l d) (nth j l d))) (seq 0 i)) (seq k m)))).
    { induction m as [|m IH]; intros k; cbn [seq flat_map map]; [constructor|].
      rewrite map_app. apply ssorted_app; auto.
      - rewrite map_map. cbn [fst]. assert (Hs : forall a b, StronglySorted lex (map (fun j => (k, j)) (seq a b))).
        { intros a b. revert a. induction b as [|b IHb]; intros a; cbn [seq map]; constructor; auto.
          rewrite Forall_forall. intros p Hp. apply in_map_iff in Hp as (j & <- & Hj). apply in_seq in Hj.
          right. cbn. lia. }
        apply Hs.
      - intros [i1 j1] [i2 j2] H1 H2. apply Hin in H2. rewrite map_map in H1. cbn [fst] in H1.
        apply in_map_iff in H1 as (j & [= <- <-] & _). left. cbn. lia. }
    apply H.
  - intros i j. rewrite Hin. lia.
  - intros i j v Hv. apply in_flat_map in Hv as (i' & _ & Hv).
    apply in_map_iff in Hv as (j' & [= <- <- <-] & _). auto.
  - rewrite flat_map_concat_map. clear.
    assert (H : forall m, (2 * length (concat (map (fun i => map (fun j => ((i, j),
        dist (nth i l d) (nth j l d))) (seq 0 i)) (seq 0 m))) = m * (m - 1))%nat).
    { induction m as [|m IH]; auto. rewrite seq_S, map_app, concat_app, app_length.
      cbn [map concat]. rewrite app_nil_r, map_length, seq_length.
      rewrite Nat.mul_add_distr_l, IH. cbn [Nat.add]. destruct m; [auto|]. cbn [Nat.sub]. rewrite Nat.sub_0_r. nia. }
    apply H.
Qed.
Print Assumptions C42_pairwise.
Example C42_example : map fst (pairwise Z.sub [1; 5; 7]) = [(1, 0); (2, 0); (2, 1)]%nat /\
    map snd (pairwise Z.sub [1; 5; 7]) = [4; 6; 2].
Proof. split; reflexivity. Qed.
