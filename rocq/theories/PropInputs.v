(** C81 - C83: inputs without data, run_std_simulate and missing .stats files;
    errors of functions of earlier properties (C15, C27, C45, C46, C56, C57). *)
From Coq Require Import Lra.
From Verif Require Import Base ModelRun ModelData ModelBoot ModelParallel ModelReal ModelStats ModelDummy Envs
     Spec SpecRun SpecReal ProofBase ProofMonad ProofDet ProofRun ProofBoot ProofParallel ProofStats PropCombine PropParallel PropEstimators.
From Verif Require ModelIO.
Local Open Scope Z_scope.

(** ** C81 *)

(** Nothing to combine, and runs without samples: an error at once, with no
    warning and the random state as it was. *)
Theorem C81_combine : forall E da dw abp (w : world E),
    combine_ns_runs [] da dw w = (Raise ValueError, w) /\
    combine_threads [] abp w = (Raise ValueError, w).
Proof. intros. split; reflexivity. Qed.
Print Assumptions C81_combine.

(** A run without samples: it has no threads, it cannot be combined with others
    which pass the check, nor resampled (a seed given by the caller is then left in
    the generator). *)
Theorem C81_no_samples : forall E r labs ns b (w : world E),
    logl r = [] -> thread_labels r = Some labs ->
    get_run_threads r w = (Raise IndexError, w) /\
    (accepted_seed b -> exists w', bootstrap_resample_run r None ns b w = (Raise IndexError, w') /\
                w_warn w' = w_warn w /\ (b = BKeep -> w' = w)) /\
    (forall A (est : run -> res (list A)), run_thread_values est r w = (Raise IndexError, w)) /\
    (forall A (est : run -> res A) n seeds, length seeds = n ->
       bootstrap_columns est r ns n seeds w = (Raise IndexError, w)) /\
    (forall ths abp l1 l2, ths = l1 ++ r :: l2 ->
       (forall t, In t ths -> length (get_tmm t) = 1%nat) ->
       (forall t, In t l1 -> exists rows, array_given_run t = Ok rows) ->
       combine_threads ths abp w = (Raise IndexError, w)).
Proof.
  intros E r labs ns b w Hl Ht.
  assert (Ha : array_given_run r = Raise IndexError).
  { unfold array_given_run. rewrite Ht, Hl. reflexivity. }
  assert (Hg : forall w : world E, get_run_threads r w = (Raise IndexError, w)).
  { intros w0. unfold get_run_threads, wbind, wlift. rewrite Ha. reflexivity. }
  repeat split; auto.
  - intros Hb. rewrite boot_form. unfold boot_body, wbind at 1 2, get_state. rewrite (apply_seed_state E b w Hb).
    cbn iota. unfold wbind. rewrite Hg. eexists. split; [reflexivity|].
    split; [reflexivity|]. intros ->. apply world_eta.
  - intros A est. unfold run_thread_values, wbind. rewrite Hg. reflexivity.
  - intros A est n seeds Hn. unfold bootstrap_columns, wbind, wassert, wlift.
    rewrite Hn, Nat.eqb_refl. cbn [assertb]. rewrite Hg. reflexivity.
  - intros ths abp l1 l2 Heq H1 Hok.
    assert (Hlen : length ths = length (flat_map get_tmm ths)).
    { clear - H1. induction ths as [|t ths IH]; auto. cbn [flat_map length]. rewrite app_length.
      rewrite (H1 t) by (left; auto). rewrite <- IH; auto. intros; apply H1; right; auto. }
    assert (Hm : mapM array_given_run ths = Raise IndexError).
    { apply mapM_Raise. exists l1, r, l2. auto. }
    unfold combine_threads. destruct ths as [|t0 t]; [destruct l1; discriminate|].
    unfold wbind at 1, wassert, wlift at 1. rewrite Hlen, Nat.eqb_refl. cbn [assertb].
    unfold wbind, wlift. rewrite Hm. reflexivity.
Qed.
Print Assumptions C81_no_samples.

(** Data frames of no runs, whether or not in parallel. *)
Theorem C81_tables : forall E (par : option (sched E)) A (est : run -> res (list A)) srt l n_simulate w,
    schedules par 0 ->
    fst (estimator_values_df par est [] w) = Raise ValueError /\
    fst (thread_values_df par est [] w) = Raise KeyError /\
    fst (bs_values_df par srt l n_simulate [] w) = Raise KeyError.
Proof.
  intros E par A est srt l n w Hs. destruct par as [s|]; cbn in Hs.
  - apply Permutation_sym, Permutation_nil in Hs.
    unfold estimator_values_df, thread_values_df, bs_values_df, parallel_apply, wbind, wlift.
    rewrite Hs. repeat split; reflexivity.
  - repeat split; reflexivity.
Qed.
Print Assumptions C81_tables.

(** A dummy thread without samples. *)
Theorem C81_dummy : forall E (U : uniform_draws E) sd start (w : world E), valid_seed sd ->
    exists w', get_dummy_thread U 0 sd start w = (Raise IndexError, w') /\ w_warn w' = w_warn w.
Proof.
  intros E U sd start [s wn] Hz. unfold get_dummy_thread, wbind, draw.
  assert (Hsd : exists s', maybe_seed sd (mkW s wn) = (Ok tt, mkW s' wn)).
  { destruct sd; eexists; [apply (seed_run E z (mkW s wn)); auto|reflexivity]. }
  destruct Hsd as (s' & ->). cbn [w_rng w_warn].
  pose proof (u_logl_length E U 0 s') as Hl. destruct (u_logl U 0 s') as [ls s1]. cbn [fst] in Hl.
  cbn [w_rng w_warn]. destruct (u_theta U 0 s1) as [ths s2].
  destruct ls; [|discriminate].
  assert (Hn : np_sort E [] = []).
  { unfold np_sort. pose proof (argsort_perm E []) as Hp. cbn in Hp. apply Permutation_sym, Permutation_nil in Hp.
    rewrite Hp. reflexivity. }
  rewrite Hn. eexists. split; [destruct start; reflexivity|]. reflexivity.
Qed.
Print Assumptions C81_dummy.

(** A run without samples which meets the hypotheses of [C81_no_samples]. *)
Definition run_empty : run := mkRun [] [] [] (Some []) (Some [(NInf, 3)]) None None.
Definition run_one : run := mkRun [3] [[7]] [1] (Some [0]) (Some [(NInf, 3)]) None None.
Example C81_example : forall w : world (script_env []),
    logl run_empty = [] /\ thread_labels run_empty = Some [] /\
    combine_threads [run_one; run_empty] false w = (Raise IndexError, w) /\
    exists r, fst (combine_threads [run_one] false w) = Ok r /\ logl r = [3].
Proof. intros [s wn]. split; [reflexivity|]. split; [reflexivity|]. split; [reflexivity|]. eexists. split; reflexivity. Qed.

(** ** C27: ninit_sep without settings *)

(** Without the number of initial threads in the settings there is one warning,
    and otherwise everything is as with ninit_sep=False. *)
Lemma boot_run : forall E r ths ns b (w w1 : world E) out w2,
    apply_seed b w = (Ok tt, w1) -> boot_body r ths ns w1 = (out, w2) ->
    bootstrap_resample_run r ths ns b w
    = (out, match out with Ok _ => if seeded b then mkW (w_rng w) (w_warn w2) else w2 | Raise _ => w2 end).
Proof.
  intros E r ths ns b w w1 out w2 H1 H2. rewrite boot_form. unfold wbind at 1, get_state.
  rewrite (wbind_run _ _ _ _ _ _ _ _ H1). unfold wbind. rewrite H2.
  destruct out as [rr|e]; [|reflexivity]. destruct (seeded b); reflexivity.
Qed.
Lemma no_ninit_given : forall E r ths b (w : world E), accepted_seed b -> settings r = None \/ settings r = Some None ->
    let sep := bootstrap_resample_run r (Some ths) true b w in
    let all := bootstrap_resample_run r (Some ths) false b w in
    fst sep = fst all /\ w_rng (snd sep) = w_rng (snd all) /\
    exists l, w_warn (snd all) = l ++ w_warn w /\ w_warn (snd sep) = l ++ WNoNinit :: w_warn w.
Proof.
  intros E r ths b [s ws] Hacc Hs sep all. subst sep all.
  assert (Hb : exists s1, apply_seed b (mkW s ws) = (Ok tt, mkW s1 ws)) by (eexists; apply apply_seed_state; auto).
  destruct Hb as (s1 & Hb).
  set (k := fun inds : list nat => let* drawn := wmapM (get_thread (E := E) ths) inds in
                        let* res := combine_threads drawn false in wret (with_settings res (settings r))).
  assert (Hu : uniform (E := E) (let* inds := randint 0 (length ths) (length ths) in k inds)).
  { apply uniform_bind; [apply uniform_randint|]. intros inds.
    apply uniform_bind; [apply uniform_get_threads|]. intros drawn.
    apply uniform_bind; [apply uniform_combine_threads|]. intros res. apply uniform_ret. }
  destruct (Hu s1) as (res & s2 & ds & Hrun).
  assert (H1 : boot_body r (Some ths) true (mkW s1 ws) = (res, mkW s2 (ds ++ WNoNinit :: ws))).
  { assert (Hd : draw_inds (E := E) r (length ths) true
                 = let* _ := warn WNoNinit in randint 0 (length ths) (length ths)).
    { unfold draw_inds. destruct Hs as [-> | ->]; reflexivity. }
    rewrite <- (Hrun (WNoNinit :: ws)). unfold boot_body, wbind at 1. unfold wret at 1. rewrite Hd. reflexivity. }
  assert (H2 : boot_body r (Some ths) false (mkW s1 ws) = (res, mkW s2 (ds ++ ws))).
  { rewrite <- (Hrun ws). reflexivity. }
  rewrite (boot_run _ _ _ _ _ _ _ _ _ Hb H1), (boot_run _ _ _ _ _ _ _ _ _ Hb H2).
  cbn [fst snd]. split; [reflexivity|]. destruct res as [rr|e]; [destruct (seeded b)|];
    cbn [w_rng w_warn]; (split; [reflexivity|]); exists ds; auto.
Qed.
Theorem C27_no_ninit : forall E r labs tmm ths b (w : world E), accepted_seed b ->
    settings r = None \/ settings r = Some None -> (ths = None -> consistent r labs tmm) ->
    let sep := bootstrap_resample_run r ths true b w in
    let all := bootstrap_resample_run r ths false b w in
    fst sep = fst all /\ w_rng (snd sep) = w_rng (snd all) /\
    exists l, w_warn (snd all) = l ++ w_warn w /\ w_warn (snd sep) = l ++ WNoNinit :: w_warn w.
Proof.
  intros E r labs tmm ths b w Hb Hs Hth. destruct ths as [l|]; [apply no_ninit_given; auto|].
  cbv zeta. rewrite !(boot_given E r labs tmm) by auto. apply no_ninit_given; auto.
Qed.
Print Assumptions C27_no_ninit.
Example C27_no_ninit_example : let w := @mkW (script_env []) [0; 0]%nat [] in
    settings run_two = None /\ consistent run_two [0; 0; 1; 0] [(NInf, 6); (Fin 3, 5)] /\
    w_warn (snd (bootstrap_resample_run run_two None true BKeep w)) = [WNoNinit] /\
    w_warn (snd (bootstrap_resample_run run_two None false BKeep w)) = [].
Proof.
  intros w. split; [reflexivity|]. split; [apply run_two_complete|]. split; vm_compute; reflexivity.
Qed.

(** ** C45: the chunk size *)

Theorem C45_chunksize : forall E A B (s : sched E) pw (f : A -> W E B) xs w,
    parallel_map (Some s) pw 0 f xs w = (Raise ValueError, w).
Proof. reflexivity. Qed.
Print Assumptions C45_chunksize.

(** A function which leaves the generator and the warnings alone: without
    parallelisation there is one warning, if asked for; otherwise none. *)
Theorem C45_warning : forall E A B (par : option (sched E)) (pw : bool) n (f : A -> W E B) xs (w : world E),
    (forall x (w : world E), snd (f x w) = w) ->
    let warned : world E := match par return world E with
                  | None => if pw then mkW (E := E) (w_rng w) (WNoParallel :: w_warn w) else w
                  | Some _ => w end in
    snd (parallel_map par pw n f xs w) = warned /\ snd (parallel_apply par pw f xs w) = warned.
Proof.
  intros E A B par pw n f xs w Hf.
  assert (Hm : forall (ys : list A) (w : world E), snd (wmapM f ys w) = w).
  { induction ys as [|x t IH]; intros w0; auto. cbn [wmapM]. unfold wbind. specialize (Hf x w0).
    destruct (f x w0) as [[y|e] w1]; cbn [snd] in Hf; subst; auto. specialize (IH w0).
    destruct (wmapM f t w0) as [[ys|e] w1]; cbn [snd] in IH; subst; auto. }
  destruct par as [sc|]; cbn zeta.
  - split; [|reflexivity]. unfold parallel_map. destruct (n =? 0)%nat; reflexivity.
  - unfold parallel_map, parallel_apply. destruct pw.
    + unfold warn, wbind. rewrite !Hm. auto.
    + unfold wret, wbind. rewrite !Hm. auto.
Qed.
Print Assumptions C45_warning.
Example C45_warning_example : forall w : world (script_env []),
    parallel_map None true 1 (fun x => wret (x + 1)) [1; 2] w = (Ok [2; 3], mkW (w_rng w) (WNoParallel :: w_warn w)) /\
    parallel_map None false 1 (fun x => wret (x + 1)) [1; 2] w = (Ok [2; 3], w).
Proof. intros [r k]. split; reflexivity. Qed.

(** ** C16: runs with a wrong file_root *)

(** If every error is one to be handled, batch_process_data still raises exactly if
    a run has no file_root (KeyError), or one which is not among the roots
    (ValueError: it is looked up for the sorting). *)
Definition names_root (roots : list Z) (r : run) : Prop :=
  exists o z, output r = Some o /\ o_root o = Some z /\ In z roots.
Theorem C16_batch_roots : forall E (par : option (sched E)) pw proc handled outcome roots w,
    (forall z w, fst (proc z w) = outcome z) -> schedules par (length roots) ->
    (forall z e, In z roots -> outcome z = Raise e -> handled e = true) ->
    match fst (batch_process_data par pw proc handled roots w) with
    | Ok _ => forall z r, In z roots -> outcome z = Ok r -> names_root roots r
    | Raise e => exists z r, In z roots /\ outcome z = Ok r /\
        ((e = KeyError /\ forall o, output r = Some o -> o_root o = None) \/
         (e = ValueError /\ exists o y, output r = Some o /\ o_root o = Some y /\ ~ In y roots))
    end.
Proof.
  intros E par pw proc handled outcome roots w Hfree Hs Hh.
  pose proof (C45_parallel_apply E _ _ par pw (process_error_helper proc handled) _ roots w
                (fun z w => helper_free E proc handled outcome z w Hfree) Hs) as [Hp _].
  unfold batch_process_data, wbind.
  destruct (parallel_apply par pw (process_error_helper proc handled) roots w) as [[data|e] w1]; cbn [fst] in Hp.
  2:{ destruct Hp as (z & Hz & Hr). destruct (outcome z) as [r|e'] eqn:Ho; [discriminate|].
      rewrite (Hh z e' Hz Ho) in Hr. discriminate. }
  destruct Hp as (_ & zs & Hperm & Hf).
  assert (Hfrom : forall x, In x data -> exists z, In z roots /\
             match outcome z with Ok r => x = IRun r | Raise e => x = IErr e z end).
  { intros x Hx. apply (Permutation_in _ Hperm) in Hx. clear - Hf Hx Hh.
    induction Hf as [|z y roots zs H _ IH]; [destruct Hx|]. destruct Hx as [<-|Hx].
    - exists z. split; [left; auto|]. destruct (outcome z) as [r|e] eqn:Ho; [congruence|].
      rewrite (Hh z e) in H; auto; [congruence|left; auto].
    - destruct IH as (z' & H1 & H2); auto; [intros; eapply Hh; eauto; right; auto|].
      exists z'. split; [right; auto|auto]. }
  assert (Hto : forall z r, In z roots -> outcome z = Ok r -> In (IRun r) data).
  { intros z r Hz Ho. apply (Permutation_in _ (Permutation_sym Hperm)). clear - Hf Hz Ho.
    induction Hf as [|z' y roots zs H _ IH]; [destruct Hz|]. destruct Hz as [->|Hz].
    - left. rewrite Ho in H. congruence.
    - right. auto. }
  unfold wlift. set (key := fun x => let! z := item_root x in let! k := index_of z roots in Ok (k, x)).
  destruct (mapM key data) as [keyed|e] eqn:Hm.
  - cbn. intros z r Hz Ho. pose proof (Hto z r Hz Ho) as Hin. apply mapM_Ok in Hm.
    assert (Hk : exists kx, key (IRun r) = Ok kx).
    { clear - Hm Hin. induction Hm as [|a b l l' H _ IH]; [destruct Hin|].
      destruct Hin as [->|Hin]; eauto. }
    destruct Hk as (kx & Hk). unfold key in Hk. cbn [item_root] in Hk.
    destruct (output r) as [o|] eqn:Hout; [|discriminate]. destruct (o_root o) as [y|] eqn:Hr; [|discriminate].
    cbn [rbind] in Hk. exists o, y. repeat split; auto.
    destruct (in_dec Z.eq_dec y roots) as [Hy|Hy]; auto. exfalso.
    assert (Hi : forall l, ~ In y l -> index_of y l = Raise ValueError).
    { induction l as [|a l IH]; intros Hn; cbn [index_of]; auto.
      destruct (Z.eqb_spec a y); [exfalso; apply Hn; left; auto|]. rewrite IH; auto. intros H; apply Hn; right; auto. }
    rewrite Hi in Hk; auto. discriminate.
  - cbn [fst]. apply mapM_Raise in Hm as (l1 & x & l2 & Hl & Hx & _).
    assert (Hin : In x data) by (rewrite Hl; apply in_elt).
    destruct (Hfrom x Hin) as (z & Hz & Hcase). unfold key in Hx.
    destruct (outcome z) as [r|e'] eqn:Ho; subst x; cbn [item_root] in Hx.
    + exists z, r. split; auto. split; auto.
      destruct (output r) as [o|] eqn:Hout.
      * destruct (o_root o) as [y|] eqn:Hr.
        -- right. cbn [rbind] in Hx. destruct (in_dec Z.eq_dec y roots) as [Hy|Hy].
           ++ destruct (index_of_first roots y Hy) as (k & Hk & _). rewrite Hk in Hx. discriminate.
           ++ assert (Hi : forall l, ~ In y l -> index_of y l = Raise ValueError).
              { induction l as [|a l IH]; intros Hn; cbn [index_of]; auto.
                destruct (Z.eqb_spec a y); [exfalso; apply Hn; left; auto|]. rewrite IH; auto. intros H; apply Hn; right; auto. }
              rewrite Hi in Hx by auto. cbn in Hx. split; [congruence|]. exists o, y. auto.
        -- left. cbn in Hx. split; [congruence|]. intros o' [= <-]. auto.
      * left. cbn in Hx. split; [congruence|]. intros o' [=].
    + exfalso. cbn [rbind] in Hx. destruct (index_of_first roots z Hz) as (k & Hk & _).
      rewrite Hk in Hx. discriminate.
Qed.
Print Assumptions C16_batch_roots.
Example C16_batch_roots_example :
  let proc out z := wret (with_output run_one (if z =? 2 then out else Some (mkOut None None (Some z) []))) in
  forall (w : world (script_env [])) handled,
    fst (batch_process_data None false (proc None) handled [1; 2] w) = Raise KeyError /\
    fst (batch_process_data None false (proc (Some (mkOut None None None []))) handled [1; 2] w) = Raise KeyError /\
    fst (batch_process_data None false (proc (Some (mkOut None None (Some 5) []))) handled [1; 2] w) = Raise ValueError /\
    fst (batch_process_data None false (proc (Some (mkOut None None (Some 1) []))) handled [1; 2] w)
    = Ok ([], [with_output run_one (Some (mkOut None None (Some 1) []));
               with_output run_one (Some (mkOut None None (Some 1) []))]).
Proof. intros proc w handled. repeat split. Qed.

(** ** C83: the .stats file of PolyChord *)

(** The run is that of the dead points with their births; its output is the
    dictionary read from the .stats file.  If this cannot be read, because of one
    of five errors, there is a warning and the output has the name only.  Other
    errors are raised. *)
Theorem C83_stats_file : forall E root samples stats da dw (w : world E),
    let rows := map (fun s => s_theta s ++ [s_logl s; s_birth s]) samples in
    match process_samples_array samples da dw w with
    | (Raise e, w') => forall ps, process_polychord_run root rows ps stats da dw w = (Raise e, w')
    | (Ok r, w') =>
        let named := mkRun (logl r) (theta r) (nlive_array r) (thread_labels r) (thread_min_max r)
                           (Some (mkOut None None (Some root) [])) (settings r) in
        process_polychord_run root rows false stats da dw w = (Ok named, w') /\
        match stats with
        | Ok o => exists r', process_polychord_run root rows true stats da dw w = (Ok r', w') /\
            output r' = Some o /\ logl r' = logl r /\ theta r' = theta r /\ nlive_array r' = nlive_array r /\
            thread_labels r' = thread_labels r /\ thread_min_max r' = thread_min_max r
        | Raise e =>
            (In e [OSError; ValueError; IndexError; NameError; TypeError] ->
             process_polychord_run root rows true stats da dw w
             = (Ok named, mkW (w_rng w') (WStats :: w_warn w'))) /\
            (~ In e [OSError; ValueError; IndexError; NameError; TypeError] ->
             process_polychord_run root rows true stats da dw w = (Raise e, w'))
        end
    end.
Proof.
  intros E root samples stats da dw w rows.
  assert (Hrows : map samp_of_row rows = samples).
  { unfold rows. rewrite map_map. rewrite <- (map_id samples) at 2. apply map_ext. intros [th l b].
    unfold samp_of_row, drop_cols. cbn [s_theta s_logl s_birth]. rewrite app_length. cbn [length].
    replace (length th + 2 - 2)%nat with (length th) by lia.
    replace (length th + 2 - 1)%nat with (S (length th)) by lia.
    rewrite firstn_app, Nat.sub_diag, firstn_all. cbn [firstn]. rewrite app_nil_r.
    rewrite !app_nth2 by lia. replace (length th - length th)%nat with 0%nat by lia.
    replace (S (length th) - length th)%nat with 1%nat by lia. reflexivity. }
  unfold process_polychord_run. rewrite Hrows.
  destruct (process_samples_array samples da dw w) as [[r|e] w'] eqn:Hp.
  - rewrite !(wbind_run _ _ _ _ _ _ _ _ Hp). cbv zeta. split; [reflexivity|].
    destruct stats as [o|e]; [eexists; split; [reflexivity|repeat split]|].
    split; intros He.
    + cbn in He. destruct He as [<-|[<-|[<-|[<-|[<-|[]]]]]]; reflexivity.
    + cbn in He. destruct e; try reflexivity; exfalso; apply He; auto 10.
  - intros ps. apply (wbind_raise _ _ _ _ _ _ _ _ Hp).
Qed.
Print Assumptions C83_stats_file.
Example C83_example : forall w : world (script_env []),
    exists r, process_polychord_run 7 [[10; 5; -1]; [20; 6; -1]] true (Raise IndexError) false false w
              = (Ok r, mkW (w_rng w) (WStats :: w_warn w)) /\ logl r = [5; 6] /\
              fst (process_polychord_run 7 [[10; 5; -1]; [20; 6; -1]] true (Raise KeyError) false false w) = Raise KeyError.
Proof. intros [s wn]. eexists. split; [vm_compute; reflexivity|]. split; reflexivity. Qed.

(** ** C46: loading a name which was not saved *)

Theorem C46_missing : forall P f name s, ModelIO.f_read f = None ->
    ModelIO.files s (ModelIO.pkl name) = None ->
    ModelIO.pickle_load P f name s = ([], (ModelIO.Err (ModelIO.OSErr 2), s)).
Proof.
  intros P f name s Hf Hs. unfold ModelIO.pickle_load, ModelIO.fail. rewrite Hf.
  cbn. rewrite Hs. reflexivity.
Qed.
Print Assumptions C46_missing.

Local Open Scope R_scope.

(** ** C82 *)

(** Numbers drawn in [n] simulations for a run with [m] samples, and the state
    afterwards. *)
Fixpoint simulated {E} (U : uniforms E) (m n : nat) (s : rst E) : list (list R) * rst E :=
  match n with
  | O => ([], s)
  | S k => let '(us, s1) := U m s in let '(l, s2) := simulated U m k s1 in (us :: l, s2)
  end.

Lemma simulate_inv : forall E (U : uniforms E) srt r l n k (w : world E) cols w',
    wmapM (fun _ : nat =>
             let* _ := wlift (get_logx (nlive_array r) None) in
             let* us := random U (length (nlive_array r)) in
             wlift (run_estimators srt r l (Some us))) (seq k n) w = (Ok cols, w') ->
    Forall2 (fun us col => run_estimators srt r l (Some us) = Ok col)
            (fst (simulated U (length (nlive_array r)) n (w_rng w))) cols /\
    w' = mkW (snd (simulated U (length (nlive_array r)) n (w_rng w))) (w_warn w).
Proof.
  induction n as [|n IH]; intros k [s ws] cols w' H; cbn [seq wmapM] in H.
  - inversion H; subst. cbn. split; constructor.
  - apply wbind_Ok in H as (col & w1 & H1 & H). apply wbind_Ok in H as (cs & w2 & H2 & H).
    apply wbind_Ok in H1 as (lx & w3 & Hlx & H1). unfold wlift in Hlx. assert (w3 = mkW s ws) by congruence. subst w3.
    apply wbind_Ok in H1 as (us & w4 & Hus & H1). unfold random in Hus. cbn [w_rng w_warn] in Hus.
    cbn [simulated w_rng]. destruct (U (length (nlive_array r)) s) as [us' s1].
    assert (us' = us /\ w4 = mkW s1 ws) as [-> ->] by (split; congruence).
    unfold wlift in H1. assert (w1 = mkW s1 ws) by congruence. subst w1.
    apply IH in H2 as [H5 ->]. cbn [w_rng w_warn] in H, H5 |- *.
    destruct (simulated U (length (nlive_array r)) n s1) as [ls s2]. cbn [fst snd] in H, H5 |- *.
    unfold wret in H. assert (cols = col :: cs) by congruence. subst cols.
    split; [constructor; [congruence|auto]|congruence].
Qed.

(** The result has for each estimator the square root of the unbiased variance of
    its values in n simulations, which use successive random numbers; nan if one of
    the values is nan, and for a single simulation.  Without n_simulate it is an
    AssertionError. *)
Theorem C82_run_std_simulate : forall E (U : uniforms E) srt r l n (w : world E) out w',
    run_std_simulate U srt r l None w = (Raise AssertionError, w) /\
    (run_std_simulate U srt r l (Some n) w = (Ok out, w') ->
     let sims := simulated U (length (nlive_array r)) n (w_rng w) in
     w' = mkW (snd sims) (w_warn w) /\
     exists values, Forall2 (fun us vs => run_estimators srt r l (Some us) = Ok vs) (fst sims) values /\
       length values = n /\ length out = length l /\
       forall j, (j < length l)%nat ->
         (forall xs, map (fun vs => nth j vs None) values = map Some xs -> (2 <= n)%nat ->
            nth_error out j = Some (Some (sqrt (variance xs)))) /\
         (In None (map (fun vs => nth j vs None) values) \/ (n <= 1)%nat -> nth_error out j = Some None)).
Proof.
  intros E U srt r l n w out w'. split; [reflexivity|]. intros H sims. unfold run_std_simulate in H.
  apply wbind_Ok in H as (cols & w1 & Hc & H). apply simulate_inv in Hc as [Hf ->].
  unfold wret in H. inversion H; subst out w'. split; [reflexivity|].
  assert (Hn : length cols = n).
  { rewrite <- (F2_length _ _ _ _ _ Hf). clear. generalize (w_rng w). induction n as [|n IH]; intros s; [reflexivity|].
    cbn [simulated]. destruct (U (length (nlive_array r)) s) as [us s1]. specialize (IH s1).
    destruct (simulated U (length (nlive_array r)) n s1). cbn [fst length] in *. auto. }
  exists cols. split; [exact Hf|]. split; [exact Hn|]. split; [rewrite map_length; apply rows_of_length|].
  intros j Hj.
  assert (Hrow : nth_error (map np_std (rows_of (length l) cols)) j = Some (np_std (nth_row cols j))).
  { unfold rows_of. rewrite map_map. rewrite (map_nth_error (fun x => np_std (nth_row cols x)) j (seq 0 (length l)) (d := j)); auto.
    rewrite (nth_error_nth' _ 0%nat) by (rewrite seq_length; auto). rewrite seq_nth; auto. }
  rewrite Hrow. unfold nth_row. split.
  - intros xs Hxs H2. rewrite Hxs. unfold np_std. rewrite all_finite_some. f_equal. apply std_variance.
    rewrite <- Hn in H2. apply (f_equal (@length _)) in Hxs. rewrite !map_length in Hxs. lia.
  - intros [Hin|H1]; f_equal; unfold np_std.
    + rewrite all_finite_in; auto.
    + destruct (all_finite _) as [xs|] eqn:Hfin; auto. apply all_finite_inv in Hfin.
      apply std_none. apply (f_equal (@length _)) in Hfin. rewrite !map_length in Hfin. lia.
Qed.
Print Assumptions C82_run_std_simulate.

(** ** C57 and C56: errors *)

(** summary_df: one true value for every column, at least two rows, and true values
    if rmse is included; then it works. *)
Theorem C57_errors : forall py3 n cols tv rm,
    ((exists out, summary_df py3 n cols tv rm = Ok out) <->
     (forall l, tv = Some l -> length l = length cols) /\ n <> 1%nat /\ (rm = true -> tv <> None)) /\
    (forall e, summary_df py3 n cols tv rm = Raise e ->
       e = if (match tv with Some l => (length l =? length cols)%nat | None => true end) && (n =? 1)%nat
           then ZeroDivisionError else AssertionError).
Proof.
  intros py3 n cols tv rm. unfold summary_df.
  destruct tv as [l|]; [destruct (Nat.eqb_spec (length l) (length cols)) as [Hl|Hl]|]; cbn [assertb rbind andb].
  - destruct n as [|[|n]]; cbn [std_unc_factor rbind Nat.eqb].
    + destruct rm; (split; [|discriminate]); split; eauto; intros _; split; try (intros; congruence); split; try (intros; congruence); lia.
    + split; [|intros e [= <-]; auto]. split; [intros (out & H); discriminate|intros (_ & H & _); congruence].
    + destruct rm; (split; [|discriminate]); split; eauto; intros _; split; try (intros; congruence); split; try (intros; congruence); lia.
  - split; [|intros e [= <-]; auto]. split; [intros (out & H); discriminate|].
    intros (H & _). exfalso. apply Hl. auto.
  - destruct n as [|[|n]]; cbn [std_unc_factor rbind Nat.eqb].
    + destruct rm.
      * split; [|intros e [= <-]; auto]. split; [intros (out & H); discriminate|intros (_ & _ & H); exfalso; apply H; auto].
      * split; [|discriminate]. split; eauto. intros _. split; [intros; congruence|]. split; [lia|intros; congruence].
    + split; [|intros e [= <-]; auto]. split; [intros (out & H); discriminate|intros (_ & H & _); congruence].
    + destruct rm.
      * split; [|intros e [= <-]; auto]. split; [intros (out & H); discriminate|intros (_ & _ & H); exfalso; apply H; auto].
      * split; [|discriminate]. split; eauto. intros _. split; [intros; congruence|]. split; [lia|intros; congruence].
Qed.
Print Assumptions C57_errors.

(** summary_df_from_list: arrays of another length than the names, or no arrays. *)
Theorem C56_list_errors : forall py3 values nest tv rm,
    (forall arr, In arr values -> length arr <> nest ->
       summary_df_from_list py3 values nest tv rm = Raise AssertionError) /\
    summary_df_from_list py3 [] nest tv rm = Raise ValueError.
Proof.
  intros py3 values nest tv rm. split; [|reflexivity]. intros arr Hin Hne. unfold summary_df_from_list.
  assert (Hm : mapM (fun a : list (option R) => assertb (length a =? nest)%nat) values = Raise AssertionError).
  { induction values as [|a values IH]; [destruct Hin|]. cbn [mapM].
    destruct (Nat.eqb_spec (length a) nest) as [He|He]; cbn [assertb rbind]; auto.
    destruct Hin as [->|Hin]; [congruence|]. rewrite IH; auto. }
  rewrite Hm. reflexivity.
Qed.
Print Assumptions C56_list_errors.

(** efficiency_gain_df: AssertionError if the lengths differ; otherwise the error of
    the first method whose values cannot be summarised; otherwise ValueError
    without methods, or if a name is empty (0) or repeated; otherwise it works. *)
Lemma dict_get_set : forall A k k' (v : A) d, (exists x, dict_get k d = Ok x) \/ k = k' ->
    exists x, dict_get k (dict_set k' v d) = Ok x.
Proof.
  intros A k k' v d. induction d as [|[k2 v2] d IH]; intros H.
  - destruct H as [(x & H)|H]; [discriminate|]. subst. cbn. rewrite Z.eqb_refl. eauto.
  - cbn [dict_set]. destruct (Z.eqb_spec k' k2) as [->|Hn].
    + cbn [dict_get] in *. destruct (Z.eqb_spec k k2); eauto. destruct H as [H|H]; [eauto|congruence].
    + cbn [dict_get] in *. destruct (Z.eqb_spec k k2); eauto.
Qed.
Theorem C56_errors : forall py3 names methods nest tv rm adj,
    let df := efficiency_gain_df py3 names methods nest tv rm adj in
    ((length names <> length methods \/ exists l, adj = Some l /\ length l <> length names) ->
     df = Raise AssertionError) /\
    (length names = length methods -> (forall l, adj = Some l -> length l = length names) ->
     (forall l1 v l2 e, methods = l1 ++ v :: l2 -> summary_df_from_list py3 v nest tv rm = Raise e ->
        (forall u, In u l1 -> exists s, summary_df_from_list py3 u nest tv rm = Ok s) -> df = Raise e) /\
     ((forall v, In v methods -> exists s, summary_df_from_list py3 v nest tv rm = Ok s) ->
      ((names = [] \/ In 0%Z names \/ ~ NoDup names) -> df = Raise ValueError) /\
      (names <> [] -> ~ In 0%Z names -> NoDup names -> exists out, df = Ok out))).
Proof.
  intros py3 names methods nest tv rm adj df.
  split.
  { intros H. subst df. unfold efficiency_gain_df. destruct adj as [l|].
    - destruct (Nat.eqb_spec (length l) (length names)) as [Hl|Hl]; cbn [assertb rbind]; auto.
      destruct (Nat.eqb_spec (length names) (length methods)) as [Hm|Hm]; cbn [assertb rbind]; auto.
      exfalso. destruct H as [H|(l' & [= <-] & H)]; auto.
    - cbn [assertb rbind]. destruct (Nat.eqb_spec (length names) (length methods)) as [Hm|Hm]; cbn [assertb rbind]; auto.
      exfalso. destruct H as [H|(l' & H & _)]; [auto|discriminate]. }
  intros Hlen Hadj.
  set (step := fun (d : list (Z * method_rows)) '((i, (name, values)) : nat * (Z * list (list (option R)))) =>
           let! s := summary_df_from_list py3 values nest tv rm in
           let! rows :=
             if (i =? 0)%nat then Ok (mkMeth s None None)
             else
               let adjust := match adj with
                             | Some a => fdiv (nth 0 a None) (nth i a None)
                             | None => Some 1
                             end in
               let! base := dict_get (hd 0%Z names) d in
               Ok (mkMeth s (Some (gains (fun c => (s_std c, s_std_unc c)) adjust (m_sum base) s))
                          (if rm then Some (gains get_rmse adjust (m_sum base) s) else None)) in
           Ok (dict_set name rows d)).
  assert (Hdf : df = let! d := foldM step (combine (seq 0 (length names)) (combine names methods)) [] in
                     match names with
                     | [] => Raise ValueError
                     | _ => if ListDec.NoDup_dec Z.eq_dec (0%Z :: names) then Ok d else Raise ValueError
                     end).
  { subst df. unfold efficiency_gain_df.
    replace (assertb match adj with Some a => (length a =? length names)%nat | None => true end) with (Ok tt).
    2:{ destruct adj as [l|]; auto. rewrite (Hadj l eq_refl), Nat.eqb_refl. auto. }
    cbn [rbind]. rewrite Hlen, Nat.eqb_refl. cbn [assertb rbind]. rewrite <- Hlen. reflexivity. }
  assert (Hfold : forall ns ms k d, length ns = length ms -> k <> 0%nat ->
            (exists x, dict_get (hd 0%Z names) d = Ok x) ->
            match mapM (fun v => summary_df_from_list py3 v nest tv rm) ms with
            | Ok _ => exists d', foldM step (combine (seq k (length ns)) (combine ns ms)) d = Ok d'
            | Raise e => foldM step (combine (seq k (length ns)) (combine ns ms)) d = Raise e
            end).
  { induction ns as [|n ns IH]; intros [|m ms] k d Hl Hk Hd; try discriminate; cbn [length seq combine mapM foldM].
    - eauto.
    - unfold step at 1 3. destruct (summary_df_from_list py3 m nest tv rm) as [s|e]; cbn [rbind]; [|reflexivity].
      destruct k as [|k]; [congruence|]. cbn [Nat.eqb]. destruct Hd as (x & Hx). rewrite Hx. cbn [rbind].
      match goal with |- context [dict_set n ?r d] =>
        assert (Hd' : exists y, dict_get (hd 0%Z names) (dict_set n r d) = Ok y) by (apply dict_get_set; eauto);
        specialize (IH ms (S (S k)) (dict_set n r d)) end.
      cbn [length] in Hl. assert (Hl' : length ns = length ms) by lia. specialize (IH Hl' ltac:(lia) Hd').
      destruct (mapM (fun v => summary_df_from_list py3 v nest tv rm) ms); cbn [rbind]; auto. }
  assert (Hall : match mapM (fun v => summary_df_from_list py3 v nest tv rm) methods with
                 | Ok _ => exists d', foldM step (combine (seq 0 (length names)) (combine names methods)) [] = Ok d'
                 | Raise e => foldM step (combine (seq 0 (length names)) (combine names methods)) [] = Raise e
                 end).
  { clear df Hdf Hadj. destruct names as [|n ns], methods as [|m ms]; try discriminate; cbn [length seq combine mapM foldM]; [eauto|].
    unfold step at 1 3. destruct (summary_df_from_list py3 m nest tv rm) as [s|e]; cbn [rbind Nat.eqb]; [|reflexivity].
    match goal with |- context [dict_set n ?r []] =>
      assert (Hd' : exists y, dict_get (hd 0%Z (n :: ns)) (dict_set n r []) = Ok y) by (apply dict_get_set; auto);
      specialize (Hfold ns ms 1%nat (dict_set n r [])) end.
    cbn [length] in Hlen. assert (Hl' : length ns = length ms) by lia. specialize (Hfold Hl' ltac:(lia) Hd').
    destruct (mapM (fun v => summary_df_from_list py3 v nest tv rm) ms); cbn [rbind]; auto. }
  split.
  - intros l1 v l2 e Hm He Hok.
    assert (Hr : mapM (fun v => summary_df_from_list py3 v nest tv rm) methods = Raise e).
    { apply mapM_Raise. exists l1, v, l2. auto. }
    rewrite Hr in Hall. rewrite Hdf, Hall. reflexivity.
  - intros Hok. destruct (mapM_exists _ _ _ _ Hok) as (ss & Hs). rewrite Hs in Hall.
    destruct Hall as (d' & Hd'). rewrite Hdf, Hd'. cbn [rbind]. split.
    + intros H. destruct names as [|n ns]; auto.
      destruct (ListDec.NoDup_dec Z.eq_dec (0%Z :: n :: ns)) as [Hnd|]; auto. exfalso.
      inversion Hnd; subst. destruct H as [H|[H|H]]; [discriminate|auto|auto].
    + intros Hne H0 Hnd. destruct names as [|n ns]; [congruence|].
      destruct (ListDec.NoDup_dec Z.eq_dec (0%Z :: n :: ns)) as [_|Hn]; eauto. exfalso. apply Hn. constructor; auto.
Qed.
Print Assumptions C56_errors.

Example C56_errors_example : let v := [[Some 1]; [Some 3]] in
    (exists out, efficiency_gain_df true [1%Z; 2%Z] [v; v] 1 None false None = Ok out) /\
    efficiency_gain_df true [1%Z; 1%Z] [v; v] 1 None false None = Raise ValueError /\
    efficiency_gain_df true [1%Z; 0%Z] [v; v] 1 None false None = Raise ValueError /\
    efficiency_gain_df true [1%Z; 2%Z] [v; []] 1 None false None = Raise ValueError /\
    efficiency_gain_df true [1%Z; 2%Z] [v; [[Some 1]]] 1 None false None = Raise ZeroDivisionError /\
    efficiency_gain_df true [1%Z; 2%Z] [v; v] 1 None true None = Raise AssertionError /\
    efficiency_gain_df true [1%Z; 2%Z] [v; v; v] 1 None false None = Raise AssertionError.
Proof.
  intros v.
  assert (Hs : exists s, summary_df_from_list true v 1 None false = Ok s) by (eexists; reflexivity).
  assert (Hv : forall u, In u [v; v] -> exists s, summary_df_from_list true u 1 None false = Ok s).
  { intros u [<-|[<-|[]]]; auto. }
  assert (Ha : forall names l, @None (list (option R)) = Some l -> length l = length (A := Z) names) by discriminate.
  split; [|split; [|split; [|split; [|split; [|split]]]]].
  - apply (C56_errors true [1%Z; 2%Z] [v; v] 1 None false None); auto; try discriminate.
    + intros [H|[H|[]]]; discriminate.
    + constructor; [intros [H|[]]; discriminate|constructor; [intros []|constructor]].
  - apply (C56_errors true [1%Z; 1%Z] [v; v] 1 None false None); auto.
    right; right. intros H. inversion H as [|? ? H1]; subst. apply H1. left; auto.
  - apply (C56_errors true [1%Z; 0%Z] [v; v] 1 None false None); auto. right; left. right; left; auto.
  - apply (C56_errors true [1%Z; 2%Z] [v; []] 1 None false None) with (l1 := [v]) (v := []) (l2 := []); auto.
    intros u [<-|[]]; auto.
  - apply (C56_errors true [1%Z; 2%Z] [v; [[Some 1]]] 1 None false None) with (l1 := [v]) (v := [[Some 1]]) (l2 := []); auto.
    intros u [<-|[]]; auto.
  - apply (C56_errors true [1%Z; 2%Z] [v; v] 1 None true None) with (l1 := []) (v := v) (l2 := [v]); auto.
    intros u [].
  - apply (C56_errors true [1%Z; 2%Z] [v; v; v] 1 None false None). left. discriminate.
Qed.

(** Two simulations, with random numbers from the state; the number of samples is
    always 4. *)
Definition U_state : uniforms (script_env []) := fun m s => (repeat (/ INR (S (hd 1 s)))%nat m, tl s).
Example C82_example : let w := @mkW (script_env []) [1; 2; 5]%nat [] in
    run_std_simulate U_state r_isort run_two [CountSamples; CountSamples] (Some 2%nat) w
    = (Ok [Some 0; Some 0], @mkW (script_env []) [5]%nat []) /\
    fst (simulated U_state 2 2 (w_rng w)) = [[/ INR 2; / INR 2]; [/ INR 3; / INR 3]].
Proof.
  intros w. split; [|reflexivity].
  assert (He : forall us, length us = 4%nat ->
            run_estimators r_isort run_two [CountSamples; CountSamples] (Some us) = Ok [Some (INR 4); Some (INR 4)]).
  { intros us Hu. destruct us as [|a [|b [|c [|d [|]]]]]; try discriminate. reflexivity. }
  assert (Hx : exists lx, get_logx (nlive_array run_two) None = Ok lx) by (eexists; reflexivity).
  destruct Hx as (lx & Hx).
  assert (Hstd : np_std [Some (INR 4); Some (INR 4)] = Some 0).
  { unfold np_std. change [Some (INR 4); Some (INR 4)] with (map Some [INR 4; INR 4]).
    rewrite all_finite_some, std_variance by auto. f_equal. unfold variance, mean. cbn [sumR map length].
    match goal with |- sqrt ?x = _ => replace x with 0 end; [apply sqrt_0|]. cbn [INR]. field. }
  unfold run_std_simulate. cbn [seq wmapM]. unfold wbind, wlift, random. rewrite Hx. cbn [w_rng w U_state tl hd w_warn].
  rewrite !He by reflexivity. unfold wret. cbn [rows_of map seq length nth_row nth]. rewrite Hstd. reflexivity.
Qed.
