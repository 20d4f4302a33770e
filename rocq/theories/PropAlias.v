(** C93: combine_ns_runs on runs which share arrays. *)
From Verif Require Import Base Envs ModelRun ModelAlias ProofBase ProofMonad Spec SpecRun
     ProofThreads ProofBirth ProofRun ProofProcess ProofDead ProofDict ProofComb ProofRuns.

(** ** What a check which passes says about the labels *)
Lemma check_labels : forall E r da dw (w : world E) u w', check_ns_run r da dw w = (Ok u, w') ->
    exists labs tmm, thread_labels r = Some labs /\ thread_min_max r = Some tmm /\ tmm <> [] /\
      In 0 labs /\ (forall x, In x labs -> 0 <= x) /\ logl r <> [] /\ length labs = length (logl r) /\
      length (nlive_array r) = length (logl r) /\ length (theta r) = length (logl r).
Proof.
  intros E r da dw w u w' H. pose proof (check_ns_run_spec E r da dw w) as Hs. rewrite H in Hs.
  destruct Hs as ((_ & labs & tmm & H1 & H2 & V1 & V2 & V3 & _ & _ & V6 & V7 & _) & _).
  rewrite map_length in V6.
  assert (Ht : tmm <> []) by (intros ->; destruct V7).
  assert (Hn : (0 < length tmm)%nat) by (destruct tmm; [congruence|simpl; lia]).
  exists labs, tmm. assert (H0 : In 0 labs) by (apply V6; lia).
  repeat split; auto.
  - intros x Hx. apply V6 in Hx. lia.
  - intros Hl. rewrite Hl in V2. destruct labs; [destruct H0|discriminate].
Qed.

Lemma check_error : forall E r da dw (w : world E) e w',
    check_ns_run r da dw w = (Raise e, w') -> e = AssertionError.
Proof.
  intros E r da dw w e w' H. pose proof (check_ns_run_spec E r da dw w) as Hs. rewrite H in Hs. apply Hs.
Qed.

Lemma nth_error_upd_other : forall A i j (x : A) l, i <> j -> nth_error (upd i x l) j = nth_error l j.
Proof.
  induction i as [|i IH]; intros [|j] x [|y l] H; simpl; try congruence; try reflexivity;
    try (apply IH; congruence).
Qed.
Lemma nth_error_upd_same : forall A i (x y : A) l, nth_error l i = Some y -> nth_error (upd i x l) i = Some x.
Proof. induction i as [|i IH]; intros x y [|z l] H; simpl in *; try discriminate; eauto. Qed.

(** ** Different arrays *)
Lemma see_upd : forall h i l x, ob_ref x <> i -> see (upd i l h) x = see h x.
Proof. intros h i l x H. unfold see. rewrite nth_error_upd_other by auto. reflexivity. Qed.
Lemma map_see_upd : forall h i l t, ~ In i (map ob_ref t) -> map (see (upd i l h)) t = map (see h) t.
Proof.
  intros h i l t H. apply map_ext_in. intros x Hx. apply see_upd. intros <-. apply H. apply in_map. auto.
Qed.

Lemma relabel_other : forall E objs tot h da dw (w : world E) h' w' j,
    relabel_shared tot objs h da dw w = (Ok h', w') -> ~ In j (map ob_ref objs) -> nth_error h' j = nth_error h j.
Proof.
  induction objs as [|x t IH]; intros tot h da dw w h' w' j H Hj.
  - injection H as <- <-. auto.
  - cbn [relabel_shared] in H. apply wbind_Ok in H as (u & w1 & _ & H).
    destruct (nth_error h (ob_ref x)) as [labs|]; [|discriminate].
    destruct (thread_min_max (ob_run x)) as [tmm|]; [|discriminate].
    cbn [map In] in Hj. rewrite (IH _ _ _ _ _ _ _ j H) by auto. apply nth_error_upd_other. auto.
Qed.

Lemma relabel_distinct : forall E objs tot h da dw (w : world E), NoDup (map ob_ref objs) ->
    match relabel_shared tot objs h da dw w, relabel_runs tot (map (see h) objs) da dw w with
    | (Ok h', w1), (Ok rl, w2) => map (see h') objs = rl /\ w1 = w2
    | (Raise e1, w1), (Raise e2, w2) => e1 = e2 /\ w1 = w2
    | _, _ => False
    end.
Proof.
  induction objs as [|x t IH]; intros tot h da dw w Hnd; [split; reflexivity|].
  cbn [relabel_shared relabel_runs map] in *. inversion Hnd as [|? ? N1 N2]; subst.
  unfold wbind. destruct (check_ns_run (see h x) da dw w) as [[u|e] w1] eqn:Hc; [|auto].
  cbn [see thread_labels thread_min_max].
  destruct (nth_error h (ob_ref x)) as [labs|] eqn:Hl; [|cbn; auto].
  destruct (thread_min_max (ob_run x)) as [tmm|] eqn:Ht; [|cbn; auto].
  set (l' := map (Z.add (Z.of_nat tot)) labs).
  specialize (IH (tot + length tmm)%nat (upd (ob_ref x) l' h) da dw w1 N2).
  rewrite (map_see_upd _ _ _ _ N1) in IH.
  destruct (relabel_shared _ t _ da dw w1) as [[h'|e] w2] eqn:Hr;
    destruct (relabel_runs _ (map (see h) t) da dw w1) as [[rl|e'] w3]; try tauto.
  destruct IH as [I1 I2]. cbn [wret]. split; [|auto]. f_equal; [|auto].
  unfold see. rewrite (relabel_other _ _ _ _ _ _ _ _ _ _ Hr N1).
  rewrite (nth_error_upd_same _ _ _ _ _ Hl), Ht. reflexivity.
Qed.

(** Lines 200-224, given the relabelled runs and the runs of the input. *)
Definition rest {E} (rl runs : list run) (da dw : bool) : W E run :=
  let tmm := flat_map get_tmm rl in
  let* samples := wlift (mapM array_given_run rl) in
  let samples := sort_rows E (concat samples) in
  let* r := dict_given_run_array samples tmm in
  let out := mkOut (option_map ONum (sum_output o_nlike runs))
                   (option_map ONum (sum_output o_ndead runs)) None [] in
  let r := with_output r (Some out) in
  let* _ := check_ns_run r da dw in
  wret r.
Lemma shared_form : forall E x y t h da dw (w : world E),
    combine_shared (x :: y :: t) h da dw w =
    (let* h' := relabel_shared 0 (x :: y :: t) h da dw in
     rest (map (see h') (x :: y :: t)) (map (see h) (x :: y :: t)) da dw) w.
Proof. reflexivity. Qed.
Lemma runs_form : forall E x y t da dw (w : world E),
    combine_ns_runs (x :: y :: t) da dw w =
    (let* rl := relabel_runs 0 (x :: y :: t) da dw in rest rl (x :: y :: t) da dw) w.
Proof. reflexivity. Qed.

Theorem C93_distinct : forall E objs h da dw (w : world E), NoDup (map ob_ref objs) ->
    combine_shared objs h da dw w = combine_ns_runs (map (see h) objs) da dw w.
Proof.
  intros E [|x [|y t]] h da dw w Hnd; [reflexivity|reflexivity|].
  set (objs := x :: y :: t) in *. pose proof (relabel_distinct E objs 0 h da dw w Hnd) as Hr.
  unfold objs at 1 2. cbn [map]. rewrite shared_form, runs_form.
  change (see h x :: see h y :: map (see h) t) with (map (see h) objs). fold objs. unfold wbind.
  destruct (relabel_shared 0 objs h da dw w) as [[h'|e] w1];
    destruct (relabel_runs 0 (map (see h) objs) da dw w) as [[rl|e'] w2]; try tauto; destruct Hr as [R1 R2].
  - subst rl w2. reflexivity.
  - subst. reflexivity.
Qed.
Print Assumptions C93_distinct.

(** ** A shared array *)
Lemma relabel_error : forall E objs tot h da dw (w : world E) e w',
    relabel_shared tot objs h da dw w = (Raise e, w') -> e = AssertionError.
Proof.
  induction objs as [|x t IH]; intros tot h da dw w e w' H; [discriminate|].
  cbn [relabel_shared] in H. unfold wbind in H.
  destruct (check_ns_run (see h x) da dw w) as [[u|e1] w1] eqn:Hc.
  - destruct (check_labels _ _ _ _ _ _ _ Hc) as (labs & tmm & H1 & H2 & _). cbn [see thread_labels thread_min_max] in H1, H2.
    rewrite H1, H2 in H. eauto.
  - injection H as <- <-. eapply check_error; eauto.
Qed.

(** No label 0: the run cannot pass its check. *)
Lemma relabel_no_zero : forall E objs tot h da dw (w : world E) h' w' i labs,
    relabel_shared tot objs h da dw w = (Ok h', w') -> nth_error h i = Some labs -> ~ In 0 labs ->
    ~ In i (map ob_ref objs).
Proof.
  induction objs as [|x t IH]; intros tot h da dw w h' w' i labs H Hi H0; [intros []|].
  cbn [relabel_shared] in H. apply wbind_Ok in H as (u & w1 & Hc & H).
  destruct (check_labels _ _ _ _ _ _ _ Hc) as (labs' & tmm & H1 & H2 & _ & H3 & _). cbn [see thread_labels thread_min_max] in H1, H2.
  rewrite H1, H2 in H. cbn [map In]. intros [Hx|Hin].
  - rewrite Hx, Hi in H1. injection H1 as ->. auto.
  - destruct (Nat.eq_dec (ob_ref x) i) as [Hx|Hx]; [rewrite Hx, Hi in H1; injection H1 as ->; auto|].
    eapply (IH _ _ _ _ _ _ _ i labs H); auto. rewrite nth_error_upd_other; auto.
Qed.

Lemma relabel_shifted : forall E objs tot h da dw (w : world E) h' w', (0 < tot)%nat ->
    relabel_shared tot objs h da dw w = (Ok h', w') ->
    NoDup (map ob_ref objs) /\
    (forall x, In x objs -> exists labs, nth_error h' (ob_ref x) = Some labs /\ ~ In 0 labs).
Proof.
  induction objs as [|x t IH]; intros tot h da dw w h' w' Ht H; [split; [constructor|intros y []]|].
  cbn [relabel_shared] in H. apply wbind_Ok in H as (u & w1 & Hc & H).
  destruct (check_labels _ _ _ _ _ _ _ Hc) as (labs & tmm & H1 & H2 & _ & H3 & H4 & _). cbn [see thread_labels thread_min_max logl] in *.
  rewrite H1, H2 in H.
  destruct (IH (tot + length tmm)%nat _ _ _ _ _ _ ltac:(lia) H) as [I1 I2].
  pose proof (nth_error_upd_same _ (ob_ref x) (map (Z.add (Z.of_nat tot)) labs) _ _ H1) as Hu.
  assert (Hz : ~ In 0 (map (Z.add (Z.of_nat tot)) labs)).
  { intros Hin. apply in_map_iff in Hin as (z & Hz & Hin). apply H4 in Hin. lia. }
  pose proof (relabel_no_zero _ _ _ _ _ _ _ _ _ _ _ H Hu Hz) as Hni.
  split; [constructor; auto|]. intros y [<-|Hy]; [|auto].
  exists (map (Z.add (Z.of_nat tot)) labs).
  rewrite (relabel_other _ _ _ _ _ _ _ _ _ _ H Hni). auto.
Qed.

Lemma relabel_length : forall E objs tot h da dw (w : world E) h' w' i l,
    relabel_shared tot objs h da dw w = (Ok h', w') -> nth_error h i = Some l ->
    exists l', nth_error h' i = Some l' /\ length l' = length l.
Proof.
  induction objs as [|x t IH]; intros tot h da dw w h' w' i l H Hi; [injection H as <- <-; eauto|].
  cbn [relabel_shared] in H. apply wbind_Ok in H as (u & w1 & _ & H).
  destruct (nth_error h (ob_ref x)) as [labs|] eqn:Hl; [|discriminate].
  destruct (thread_min_max (ob_run x)) as [tmm|]; [|discriminate].
  destruct (Nat.eq_dec (ob_ref x) i) as [<-|Hx].
  - rewrite Hl in Hi. injection Hi as ->.
    destruct (IH _ _ _ _ _ _ _ _ _ H (nth_error_upd_same _ _ _ _ _ Hl)) as (l' & L1 & L2).
    exists l'. rewrite map_length in L2. auto.
  - apply (IH _ _ _ _ _ _ _ i l H). rewrite nth_error_upd_other; auto.
Qed.

Lemma relabel_shape : forall E objs tot h da dw (w : world E) h' w',
    relabel_shared tot objs h da dw w = (Ok h', w') ->
    forall x, In x objs -> exists rows, array_given_run (see h' x) = Ok rows /\ rows <> [].
Proof.
  induction objs as [|x t IH]; intros tot h da dw w h' w' H y Hy; [destruct Hy|].
  destruct Hy as [<-|Hy]; cbn [relabel_shared] in H;
    apply wbind_Ok in H as (u & w1 & Hc & H);
    destruct (check_labels _ _ _ _ _ _ _ Hc) as (labs & tmm & H1 & H2 & _ & _ & _ & H4 & H5 & H6 & H7);
    cbn [see thread_labels thread_min_max logl nlive_array theta] in *; rewrite H1, H2 in H; [|eauto].
  destruct (relabel_length _ _ _ _ _ _ _ _ _ _ _ H (nth_error_upd_same _ _ _ _ _ H1)) as (l' & L1 & L2).
  rewrite map_length in L2. eexists. split.
  - apply (array_given_valid (see h' x) l'); cbn [see logl nlive_array theta]; auto. rewrite L2. auto.
  - cbn [see logl nlive_array theta].
    destruct (logl (ob_run x)) as [|a lg]; [congruence|].
    destruct l' as [|b l'']; [cbn [length] in *; lia|].
    destruct (theta (ob_run x)) as [|c th]; [discriminate|].
    destruct (diff (nlive_array (ob_run x)) ++ [-1]) eqn:He; [destruct (app_eq_nil _ _ He); discriminate|].
    discriminate.
Qed.

Lemma mapM_shape : forall A B (f : A -> res (list B)) l, (forall x, In x l -> exists y, f x = Ok y /\ y <> []) ->
    l <> [] -> exists ys, mapM f l = Ok ys /\ concat ys <> [].
Proof.
  induction l as [|x t IH]; intros H Hne; [congruence|]. cbn [mapM].
  destruct (H x (or_introl eq_refl)) as (y & Y1 & Y2). rewrite Y1. cbn [rbind].
  assert (Hc : forall zs, concat (y :: zs) <> []).
  { intros zs He. cbn [concat] in He. apply app_eq_nil in He as [He _]. auto. }
  destruct t as [|x' t']; [eexists; split; [reflexivity|apply Hc]|].
  destruct (IH (fun z Hz => H z (or_intror Hz)) ltac:(discriminate)) as (ys & -> & _).
  cbn [rbind]. eexists. split; [reflexivity|apply Hc].
Qed.

Lemma Forall2_right : forall A B (P : A -> B -> Prop) l m, Forall2 P l m ->
    forall y, In y m -> exists x, In x l /\ P x y.
Proof.
  induction 1 as [|x y l m Hp Hf IH]; intros z Hz; [destruct Hz|].
  destruct Hz as [<-|Hz]; [exists x; split; [left|]; auto|].
  destruct (IH z Hz) as (x' & X1 & X2). exists x'. split; [right|]; auto.
Qed.

Lemma zip_lab : forall ls labs dns ths x, In x (zip_rows ls labs dns ths) -> In (r_lab x) labs.
Proof.
  induction ls as [|l ls IH]; intros [|b labs] [|d dns] [|t ths] x H; simpl in H; try contradiction.
  destruct H as [<-|H]; [left; auto|right; eauto].
Qed.

Lemma dict_error : forall E rows tmm (w : world E) e w', rows <> [] ->
    dict_given_run_array rows tmm w = (Raise e, w') -> e = AssertionError.
Proof.
  intros E [|x t] tmm w e w' Hne H; [congruence|]. unfold dict_given_run_array in H. cbv zeta in H.
  unfold wbind, wassert, wlift, assertb, warn, wret in H.
  repeat match type of H with context [if ?b then _ else _] => destruct b end; congruence.
Qed.
Lemma dict_labels : forall E rows tmm (w : world E) r w', 
    dict_given_run_array rows tmm w = (Ok r, w') -> thread_labels r = Some (map r_lab rows).
Proof.
  intros E [|x t] tmm w r w' H; [discriminate|]. unfold dict_given_run_array in H. cbv zeta in H.
  apply wbind_Ok in H as (u1 & w1 & _ & H). apply wbind_Ok in H as (u2 & w2 & _ & H).
  apply wbind_Ok in H as (u3 & w3 & _ & H). apply wbind_Ok in H as (u4 & w4 & _ & H).
  injection H as <- _. reflexivity.
Qed.

(** Some array belongs to two of the runs: always AssertionError. *)
Theorem C93_shared : forall E objs h da dw (w : world E),
    ~ NoDup (map ob_ref objs) ->
    exists w', combine_shared objs h da dw w = (Raise AssertionError, w').
Proof.
  intros E [|x [|y t]] h da dw w Hd;
    [contradiction Hd; constructor|contradiction Hd; repeat constructor; intros []|].
  set (objs := x :: y :: t) in *.
  unfold objs at 1. rewrite shared_form. fold objs.
  unfold wbind at 1. destruct (relabel_shared 0 objs h da dw w) as [[h'|e] w1] eqn:Hr;
    [|rewrite (relabel_error _ _ _ _ _ _ _ _ _ Hr); eauto].
  assert (Hlab : forall z, In z objs -> exists labs, nth_error h' (ob_ref z) = Some labs /\ ~ In 0 labs).
  { unfold objs in Hr. cbn [relabel_shared] in Hr. apply wbind_Ok in Hr as (u & w2 & Hc & Hr).
    destruct (check_labels _ _ _ _ _ _ _ Hc) as (labs & tmm & H1 & H2 & H3 & _). cbn [see thread_labels thread_min_max] in H1, H2.
    rewrite H1, H2 in Hr.
    assert (Hn : (0 < 0 + length tmm)%nat) by (destruct tmm; [congruence|simpl; lia]).
    destruct (relabel_shifted E (y :: t) _ _ da dw w2 h' w1 Hn Hr) as [S1 S2].
    intros z [<-|Hz]; [|destruct (S2 z Hz) as (l & L1 & L2); eauto].
    assert (Hin : In (ob_ref x) (map ob_ref (y :: t))).
    { destruct (in_dec Nat.eq_dec (ob_ref x) (map ob_ref (y :: t))) as [H|H]; auto.
      contradiction Hd. unfold objs. cbn [map]. constructor; auto. }
    apply in_map_iff in Hin as (z & Hz & Hin). destruct (S2 z Hin) as (l & L1 & L2).
    rewrite Hz in L1. eauto. }
  unfold rest. cbv zeta.
  destruct (mapM_shape _ _ array_given_run (map (see h') objs)) as (ls & Hm & Hcon); [|discriminate|].
  { intros z Hz. apply in_map_iff in Hz as (z' & <- & Hz). exact (relabel_shape _ _ _ _ _ _ _ _ _ Hr z' Hz). }
  rewrite Hm.
  { unfold wbind at 1, wlift.
    assert (Hls : forall l r, In l ls -> In r l -> r_lab r <> 0).
    { apply mapM_Ok in Hm. intros l r Hl Hrow.
      assert (Hex : exists z, In z objs /\ array_given_run (see h' z) = Ok l).
      { destruct (Forall2_right _ _ _ _ _ Hm l Hl) as (r' & R1 & R2).
        apply in_map_iff in R1 as (z & <- & Hz). eauto. }
      destruct Hex as (z & Hz & Ha). destruct (Hlab z Hz) as (labs & L1 & L2).
      unfold array_given_run, see in Ha. cbn [thread_labels] in Ha. rewrite L1 in Ha.
      cbn [logl nlive_array theta] in Ha.
      destruct (_ =? 0)%nat; [discriminate|]. destruct (_ && _ && _); [|discriminate]. injection Ha as <-.
      intros He. apply L2. rewrite <- He. eapply zip_lab; eauto. }
    unfold wbind at 1.
    destruct (dict_given_run_array (sort_rows E (concat ls)) _ w1) as [[r|e] w2] eqn:Hdict.
    + pose proof (dict_labels _ _ _ _ _ _ Hdict) as Hrl. unfold wbind.
      match goal with |- context [check_ns_run ?r0 da dw w2] => set (r1 := r0) end.
      destruct (check_ns_run r1 da dw w2) as [[u|e] w3] eqn:Hc.
      * exfalso. destruct (check_labels _ _ _ _ _ _ _ Hc) as (labs & tmm & H1 & _ & _ & H3 & _).
        unfold r1, with_output in H1. cbn [thread_labels] in H1. rewrite Hrl in H1. injection H1 as <-.
        apply in_map_iff in H3 as (row & R1 & R2).
        apply (Permutation_in _ (sort_rows_perm E _)) in R2. apply in_concat in R2 as (l & Hl & Hin).
        exact (Hls l row Hl Hin R1).
      * rewrite (check_error _ _ _ _ _ _ _ Hc). eauto.
    + eexists. f_equal. f_equal. eapply dict_error; [|exact Hdict].
      intros He. apply Hcon. apply Permutation_nil. rewrite <- He. apply sort_rows_perm. }
Qed.
Print Assumptions C93_shared.

(** A run given twice, and the same with a copy of the labels. *)
Definition once : obj := mkObj (mkRun [1; 4] [[10]; [40]] [2; 1] None (Some [(NInf, 1); (NInf, 4)]) None None) 0.
Definition again : obj := mkObj (ob_run once) 1.
Example C93_example : forall w : world (script_env []),
    ~ NoDup (map ob_ref [once; once]) /\
    fst (combine_shared [once; once] [[0; 1]] false false w) = Raise AssertionError /\
    NoDup (map ob_ref [once; again]) /\
    fst (combine_shared [once; again] [[0; 1]; [0; 1]] false false w) =
    Ok (mkRun [1; 1; 4; 4] [[10]; [10]; [40]; [40]] [4; 3; 2; 1] (Some [0; 2; 1; 3])
              (Some [(NInf, 1); (NInf, 4); (NInf, 1); (NInf, 4)])
              (Some (mkOut None None None [])) None).
Proof.
  intros [r k]. split; [|split; [vm_compute; reflexivity|split; [|vm_compute; reflexivity]]].
  - intros H. inversion H as [|? ? H1 _]. apply H1. left. reflexivity.
  - repeat constructor; simpl; intuition discriminate.
Qed.
