(** C55, C69, C70: the random state and the limits of the plotting functions. *)
From Coq Require Import Lra.
From Verif Require Import Base ModelRun ModelBoot ModelReal ModelStats ModelPlots Envs Spec SpecRun
                          ProofBase ProofMonad ProofDet ProofBoot.
Local Open Scope R_scope.

Lemma uniform_random : forall E (U : uniforms E) n, uniform (random U n).
Proof.
  intros E U n s. exists (Ok (fst (U n s))), (snd (U n s)), []. intros ws. unfold random. cbn [w_rng w_warn].
  destruct (U n s); auto.
Qed.
Lemma uniform_boot_keep : forall E r ths ns, uniform (E := E) (bootstrap_resample_run r ths ns BKeep).
Proof.
  intros. unfold bootstrap_resample_run. apply uniform_bind; [apply uniform_get|intros st].
  apply uniform_bind; [apply uniform_ret|intros _]. apply uniform_bind.
  - destruct ths; [apply uniform_ret|apply uniform_get_run_threads].
  - intros l. apply uniform_bind; [apply uniform_draw|intros inds].
    apply uniform_bind; [apply uniform_get_threads|intros drawn].
    apply uniform_bind; [apply uniform_combine_threads|intros rs].
    apply uniform_bind; [apply uniform_ret|intros _; apply uniform_ret].
Qed.
Lemma uniform_bs_sample : forall E r ths, uniform (E := E) (bs_sample r ths).
Proof.
  intros. unfold bs_sample. apply uniform_bind; [apply uniform_boot_keep|intros rt].
  apply uniform_bind; [apply uniform_lift|intros; apply uniform_ret].
Qed.
Lemma uniform_bs_dists : forall E r fs na nl n mc, uniform (E := E) (plot_bs_dists r fs na nl n mc).
Proof.
  intros. unfold plot_bs_dists. apply uniform_bind; [apply uniform_assert|intros _].
  apply uniform_bind; [apply uniform_assert|intros _].
  apply uniform_bind; [apply uniform_get_run_threads|intros ths].
  apply uniform_bind; [apply uniform_mapM; intros; apply uniform_bs_sample|intros bs].
  apply uniform_bind; [apply uniform_lift|intros arr].
  apply uniform_bind; [destruct mc; [apply uniform_lift|apply uniform_ret]|intros ms].
  destruct fs; [apply uniform_raise|apply uniform_ret].
Qed.
Lemma uniform_seed_with : forall E s (f : rst E), uniform (seed_with s f).
Proof. intros. destruct s; [apply uniform_seed|apply uniform_set]. Qed.

(** What a uniform computation does from two worlds with the same random state. *)
Lemma uniform_same : forall E A (m : W E A) w1 w2, uniform m -> w_rng w1 = w_rng w2 ->
    fst (m w1) = fst (m w2) /\ w_rng (snd (m w1)) = w_rng (snd (m w2)).
Proof.
  intros E A m [s1 ws1] [s2 ws2] H He. cbn [w_rng] in He. subst s2. destruct (H s1) as (r & s' & ds & Hm).
  rewrite !Hm. auto.
Qed.

Lemma valid_seed_dec : forall s, valid_seed s \/ exists z, s = Some z /\ ~ (0 <= z < 4294967296)%Z.
Proof.
  intros [z|]; [|left; discriminate]. destruct (Z.le_gt_cases 0 z), (Z.lt_ge_cases z 4294967296);
    try (right; exists z; split; auto; lia). left. intros y Hy. injection Hy as <-. auto.
Qed.
Lemma seed_with_run : forall E s (f : rst E) w, valid_seed s ->
    seed_with s f w = (Ok tt, mkW (match s with Some z => r_seed E z | None => f end) (w_warn w)).
Proof. intros E s f w H. destruct s; [apply seed_run; auto|reflexivity]. Qed.
Lemma seed_with_bad : forall E z (f : rst E) w, ~ (0 <= z < 4294967296)%Z -> seed_with (Some z) f w = (Raise ValueError, w).
Proof. intros. apply seed_bad. auto. Qed.

(** ** bs_param_dists *)

(** A successful call leaves the random state as it was; what is plotted does
    not depend on the state, nor on earlier warnings. *)
Theorem C55_bs_param_dists : forall E runs fthetas nlabels nlims n_simulate random_seed (fresh : rst E),
    let m := bs_param_dists runs fthetas nlabels nlims n_simulate random_seed fresh in
    (forall w out w', m w = (Ok out, w') -> w_rng w' = w_rng w) /\
    (forall w1 w2, fst (m w1) = fst (m w2)).
Proof.
  intros E runs fs nlab nlim n rs fresh m. unfold m, bs_param_dists. clear m.
  set (loop := wmapM _ _). assert (Hu : uniform loop).
  { apply uniform_mapM. intros [k r]. apply uniform_bind; [apply uniform_lift|intros; apply uniform_bs_dists]. }
  clearbody loop. split.
  - intros w out w' H. apply wbind_Ok in H as (st & w1 & H1 & H). injection H1 as <- <-.
    apply wbind_Ok in H as (u & w2 & H2 & H). apply wbind_Ok in H as (u1 & w3 & H3 & H).
    apply wbind_Ok in H as (ux & wx & Hx & H). unfold wlift in Hx. injection Hx as _ <-.
    apply wbind_Ok in H as (o & w4 & H4 & H). apply wbind_Ok in H as (u5 & w5 & H5 & H).
    injection H as <- <-. injection H5 as <- <-. reflexivity.
  - intros w1 w2. unfold wbind, get_state, wassert, wlift, set_state, wret.
    destruct (valid_seed_dec rs) as [Hrs|(z & -> & Hz)]; [|rewrite !seed_with_bad by auto; reflexivity].
    rewrite !seed_with_run by auto.
    set (s := match rs with Some z => _ | None => _ end).
    destruct (assertb _); [|reflexivity]. destruct (row_of_axes _); [|reflexivity].
    destruct (uniform_same _ _ loop (mkW s (w_warn w1)) (mkW s (w_warn w2)) Hu eq_refl) as [Hf _].
    destruct (loop (mkW s (w_warn w1))) as [[o1|e1] v1], (loop (mkW s (w_warn w2))) as [[o2|e2] v2];
      cbn [fst] in *; congruence.
Qed.

(** ** param_logx_diagram *)

(** Two computations which do the same up to their results. *)
Definition alike {E A B} (R : A -> B -> Prop) (m1 : W E A) (m2 : W E B) : Prop :=
  forall w, match m1 w, m2 w with
            | (Ok x, w1), (Ok y, w2) => R x y /\ w1 = w2
            | (Raise e1, w1), (Raise e2, w2) => e1 = e2 /\ w1 = w2
            | _, _ => False
            end.
Lemma alike_refl : forall E A (m : W E A), alike eq m m.
Proof. intros E A m w. destruct (m w) as [[x|e] w']; auto. Qed.
Lemma alike_bind : forall E A B C D (R : A -> B -> Prop) (S : C -> D -> Prop) (m1 : W E A) m2 (f : A -> W E C) (g : B -> W E D),
    alike R m1 m2 -> (forall x y, R x y -> alike S (f x) (g y)) -> alike S (wbind m1 f) (wbind m2 g).
Proof.
  intros E A B C D R S m1 m2 f g Hm Hf w. unfold wbind. specialize (Hm w).
  destruct (m1 w) as [[x|e] w1], (m2 w) as [[y|e'] w2]; try contradiction.
  - destruct Hm as [HR <-]. apply (Hf x y HR w1).
  - auto.
Qed.
Lemma alike_ret : forall E A B (R : A -> B -> Prop) x y, R x y -> alike (E := E) R (wret x) (wret y).
Proof. intros E A B R x y H w. cbn. auto. Qed.
Lemma alike_foldM : forall E A S T (R : S -> T -> Prop) (f : S -> A -> W E S) (g : T -> A -> W E T) l,
    (forall s t x, In x l -> R s t -> alike R (f s x) (g t x)) ->
    forall s t, R s t -> alike R (wfoldM f l s) (wfoldM g l t).
Proof.
  induction l as [|x l IH]; intros Hf s t H; cbn [wfoldM]; [apply alike_ret; auto|].
  eapply alike_bind; [apply Hf; [left; auto|exact H]|]. intros; apply IH; auto. intros; apply Hf; auto. right; auto.
Qed.
Section Diagram.
  Context {E : env} (U : uniforms E) (fs : list quantity) (o : options) (rs : option Z) (fresh : nat -> rst E).

  Lemma uniform_weight_row : forall r, uniform (weight_row U r).
  Proof.
    intros. unfold weight_row. apply uniform_bind; [apply uniform_lift|intros _].
    apply uniform_bind; [apply uniform_random|intros us].
    apply uniform_bind; [apply uniform_lift|intros lx]. cbv zeta.
    destruct (negb _); [apply uniform_raise|apply uniform_ret].
  Qed.
  Lemma uniform_plot_run : forall lim st k r, uniform (plot_run U fs o rs fresh lim st k r).
  Proof.
    intros. unfold plot_run. apply uniform_bind; [apply uniform_mapM; intros; apply uniform_weight_row|intros rows].
    apply uniform_bind; [destruct lim, rows; unif|intros lim'].
    apply uniform_bind; [apply uniform_lift|intros _]. apply uniform_bind; [apply uniform_lift|intros logx].
    apply uniform_bind.
    { destruct (Req_EM_T (o_thin o) 1); [apply uniform_ret|].
      apply uniform_bind; [apply uniform_assert|intros _]. apply uniform_bind; [apply uniform_get|intros s].
      apply uniform_bind; [apply uniform_seed_with|intros _]. apply uniform_bind; [apply uniform_random|intros us].
      cbv zeta. apply uniform_bind; [apply uniform_set|intros; apply uniform_ret]. }
    intros [[sx sth] st']. apply uniform_bind.
    { apply uniform_mapM. intros f. apply uniform_bind; [apply uniform_lift|intros v].
      apply uniform_bind; [apply uniform_lift|intros _]. apply uniform_bind; [|intros; apply uniform_ret].
      apply uniform_mapM. intros i. apply uniform_bind; [destruct (thread_labels r); unif|intros labs].
      cbv zeta. apply uniform_bind; [apply uniform_lift|intros tv].
      apply uniform_bind; [apply uniform_lift|intros; apply uniform_ret]. }
    intros sct. cbv zeta. apply uniform_bind; [apply uniform_lift|intros _].
    apply uniform_bind; [apply uniform_bs_dists|intros d].
    apply uniform_bind; [destruct (o_means o); [apply uniform_lift|apply uniform_ret]|intros ms]. apply uniform_ret.
  Qed.

  (** The variable [state] is only passed on, or overwritten if thin is not 1. *)
  Definition passed (s1 s2 : rst E) (a1 a2 : run_plot * rst E) : Prop :=
    fst a1 = fst a2 /\ (o_thin o = 1 -> snd a1 = s1 /\ snd a2 = s2) /\ (o_thin o <> 1 -> snd a1 = snd a2).
  Lemma plot_run_state : forall lim s1 s2 k r,
      alike (passed s1 s2) (plot_run U fs o rs fresh lim s1 k r) (plot_run U fs o rs fresh lim s2 k r).
  Proof.
    intros lim s1 s2 k r. unfold plot_run. destruct (Req_EM_T (o_thin o) 1) as [Ht|Ht].
    - eapply alike_bind; [apply alike_refl|intros rows ? <-].
      eapply alike_bind; [apply alike_refl|intros lim' ? <-].
      eapply alike_bind; [apply alike_refl|intros ? ? _].
      eapply alike_bind; [apply alike_refl|intros logx ? <-].
      eapply (alike_bind _ _ _ _ _ (fun x y => fst x = fst y /\ snd x = s1 /\ snd y = s2)); [apply alike_ret; auto|].
      intros [[sx sth] t1] [[sx' sth'] t2] (Heq & H1 & H2). cbn [fst snd] in *. injection Heq as <- <-. subst t1 t2.
      eapply alike_bind; [apply alike_refl|intros sct ? <-]. cbv zeta.
      eapply alike_bind; [apply alike_refl|intros ? ? _].
      eapply alike_bind; [apply alike_refl|intros d ? <-].
      eapply alike_bind; [apply alike_refl|intros ms ? <-].
      apply alike_ret. split; [reflexivity|]. split; [auto|contradiction].
    - intros w. set (q := wbind _ _ w). destruct q as [[x|e] w']; auto.
      split; auto. split; auto. split; [contradiction|auto].
  Qed.

  (** The loop over the runs. *)
  Definition loop (runs : list run) (st : rst E) : W E (list run_plot * rst E) :=
    wfoldM (fun '(acc, st) '(nrun, r) =>
                        let* p := plot_run U fs o rs fresh (limit_before o acc) st nrun r in
                        wret (acc ++ [fst p], snd p))
                     (rev (combine (seq 0 (length runs)) runs)) ([], st).
  Lemma uniform_loop : forall runs st, uniform (loop runs st).
  Proof.
    intros. apply uniform_foldM. intros [acc s] [k r]. apply uniform_bind; [apply uniform_plot_run|intros; apply uniform_ret].
  Qed.
  Lemma loop_thin1 : forall runs st1 st2, o_thin o = 1 ->
      alike (fun a1 a2 => fst a1 = fst a2 /\ snd a1 = st1 /\ snd a2 = st2) (loop runs st1) (loop runs st2).
  Proof.
    intros runs st1 st2 Ht. unfold loop. apply alike_foldM; [|auto].
    intros [a1 t1] [a2 t2] [k r] _ (H1 & H2 & H3). cbn [fst snd] in *. subst.
    eapply alike_bind; [apply plot_run_state|]. intros p1 p2 (Hp & Hs & _). apply alike_ret. cbn [fst snd].
    rewrite Hp. split; [auto|apply Hs; auto].
  Qed.
  Lemma loop_thin : forall runs st1 st2, o_thin o <> 1 -> runs <> [] -> alike eq (loop runs st1) (loop runs st2).
  Proof.
    intros runs st1 st2 Ht Hn. unfold loop. destruct (rev (combine (seq 0 (length runs)) runs)) as [|[k r] l] eqn:Hl.
    - exfalso. apply Hn. apply (f_equal (@length _)) in Hl. rewrite rev_length, combine_length, seq_length, Nat.min_id in Hl.
      destruct runs; [auto|discriminate].
    - cbn [wfoldM]. eapply (alike_bind _ _ _ _ _ eq).
      + eapply alike_bind; [apply plot_run_state|]. intros p1 p2 (Hp & _ & Hs). apply alike_ret.
        rewrite Hp, Hs by auto. auto.
      + intros x ? <-. apply alike_refl.
  Qed.


  Lemma diagram_run : forall runs w, runs <> [] -> fs <> [] -> valid_seed rs ->
    param_logx_diagram U runs fs o rs fresh w =
    (if ((length fs =? o_nlabels o) && (length fs =? o_nlims o))%nat then
       match loop runs (w_rng w) (mkW (match rs with Some z => r_seed E z | None => fresh (length runs) end) (w_warn w)) with
       | (Ok (out, st), w') => (Ok out, mkW st (w_warn w'))
       | (Raise e, w') => (Raise e, w')
       end
     else (Raise AssertionError, mkW (match rs with Some z => r_seed E z | None => fresh (length runs) end) (w_warn w))).
  Proof.
    intros runs w Hn Hf Hrs. unfold param_logx_diagram, wassert, wlift. unfold wbind at 1. unfold get_state at 1. cbv beta iota.
    unfold wbind at 1. rewrite seed_with_run by auto. set (s := match rs with Some z => _ | None => _ end).
    unfold wbind at 1. destruct (length fs =? o_nlabels o)%nat; cbn [andb assertb]; [|reflexivity].
    unfold wbind at 1. destruct (length fs =? o_nlims o)%nat; cbn [andb assertb]; [|reflexivity].
    unfold wbind at 1. replace (match fs with [] => Raise IndexError | _ => Ok tt end) with (Ok tt) by (destruct fs; congruence).
    unfold wbind at 1. fold (loop runs (w_rng w)). destruct (loop runs (w_rng w) (mkW s (w_warn w))) as [[[out st]|e] w']; auto.
    destruct runs; [congruence|]. reflexivity.
  Qed.
  Lemma diagram_none : forall runs w, fs = [] -> valid_seed rs ->
    param_logx_diagram U runs fs o rs fresh w =
    (Raise (if ((o_nlabels o =? 0) && (o_nlims o =? 0))%nat then IndexError else AssertionError),
     mkW (match rs with Some z => r_seed E z | None => fresh (length runs) end) (w_warn w)).
  Proof.
    intros runs w -> Hrs. unfold param_logx_diagram, wassert, wlift, wbind, get_state. rewrite seed_with_run by auto. cbn [length].
    rewrite !(Nat.eqb_sym 0). destruct (o_nlabels o =? 0)%nat; [|reflexivity]. destruct (o_nlims o =? 0)%nat; reflexivity.
  Qed.
  Lemma diagram_bad : forall runs w z, rs = Some z -> ~ (0 <= z < 4294967296)%Z ->
    param_logx_diagram U runs fs o rs fresh w = (Raise ValueError, w).
  Proof.
    intros runs w z -> Hz. unfold param_logx_diagram. unfold wbind at 1, get_state. unfold wbind at 1.
    rewrite seed_with_bad by auto. reflexivity.
  Qed.
  Lemma diagram_valid : forall runs w out w', param_logx_diagram U runs fs o rs fresh w = (Ok out, w') -> valid_seed rs.
  Proof.
    intros runs w out w' H. destruct (valid_seed_dec rs) as [Hrs|(z & Hrs & Hz)]; auto.
    rewrite (diagram_bad runs w z) in H by auto. discriminate.
  Qed.
End Diagram.

(** Without thinning a successful call restores the random state, and what is
    plotted does not depend on it. *)
Theorem C55_param_logx_diagram : forall E (U : uniforms E) runs fthetas o random_seed (fresh : nat -> rst E),
    o_thin o = 1 ->
    let m := param_logx_diagram U runs fthetas o random_seed fresh in
    (forall w out w', m w = (Ok out, w') -> w_rng w' = w_rng w) /\
    (forall w1 w2, fst (m w1) = fst (m w2)).
Proof.
  intros E U runs fs o rs fresh Ht m. unfold m. clear m.
  destruct (valid_seed_dec rs) as [Hrs|(z & Hrs & Hz)].
  2: { split; [intros w out w' H|intros w1 w2]; rewrite !(diagram_bad U fs o rs fresh runs _ z) in * by auto; [discriminate|reflexivity]. }
  destruct fs as [|f0 fs0] eqn:Hfs.
  { split; [intros w out w' H|intros w1 w2]; rewrite !diagram_none in * by auto; [discriminate|reflexivity]. }
  assert (Hfq : fs <> []) by (rewrite Hfs; discriminate). rewrite <- Hfs. clear Hfs f0 fs0.
  destruct runs as [|r0 runs0] eqn:Hr.
  - split.
    + intros w out w' H. unfold param_logx_diagram in H. apply wbind_Ok in H as (? & ? & _ & H).
      apply wbind_Ok in H as (? & ? & _ & H). apply wbind_Ok in H as (? & ? & _ & H).
      apply wbind_Ok in H as (? & ? & _ & H). apply wbind_Ok in H as (? & ? & _ & H). apply wbind_Ok in H as (? & ? & _ & H). discriminate.
    + intros w1 w2. unfold param_logx_diagram, wbind, get_state, wassert, wlift. rewrite !seed_with_run by auto.
      destruct (assertb _); [|reflexivity]. destruct (assertb _); [|reflexivity]. destruct fs; reflexivity.
  - assert (Hn : runs <> []) by (rewrite Hr; discriminate). rewrite <- Hr. clear Hr r0 runs0. split.
    + intros w out w' H. rewrite diagram_run in H by auto. destruct (_ && _)%bool; [|discriminate].
      set (s := match rs with Some z => _ | None => _ end) in H.
      pose proof (loop_thin1 U fs o rs fresh runs (w_rng w) (w_rng w) Ht (mkW s (w_warn w))) as Hl.
      destruct (loop U fs o rs fresh runs (w_rng w) (mkW s (w_warn w))) as [[[x st]|e] w1]; [|discriminate].
      destruct Hl as ((_ & Hl & _) & _). cbn [snd] in Hl. injection H as <- <-. auto.
    + intros w1 w2. rewrite !diagram_run by auto. destruct (_ && _)%bool; [|reflexivity].
      set (s := match rs with Some z => _ | None => _ end).
      pose proof (loop_thin1 U fs o rs fresh runs (w_rng w1) (w_rng w2) Ht (mkW s (w_warn w1))) as Hl.
      pose proof (uniform_same _ _ _ (mkW s (w_warn w1)) (mkW s (w_warn w2)) (uniform_loop U fs o rs fresh runs (w_rng w2)) eq_refl) as [Hf _].
      destruct (loop U fs o rs fresh runs (w_rng w1) (mkW s (w_warn w1))) as [[[x1 st1]|e1] v1],
               (loop U fs o rs fresh runs (w_rng w2) (mkW s (w_warn w1))) as [[[x2 st2]|e2] v2]; try contradiction;
        destruct (loop U fs o rs fresh runs (w_rng w2) (mkW s (w_warn w2))) as [[[x3 st3]|e3] v3]; cbn [fst snd] in *; try discriminate.
      * destruct Hl as ((-> & _) & _). congruence.
      * destruct Hl as (-> & _). congruence.
Qed.

(** With thinning the final state does not depend on the initial one: the
    saved state is overwritten.  (What is plotted still does not.) *)
Theorem C55_thin_state : forall E (U : uniforms E) runs fthetas o random_seed (fresh : nat -> rst E),
    o_thin o <> 1 -> runs <> [] -> valid_seed random_seed ->
    let m := param_logx_diagram U runs fthetas o random_seed fresh in
    forall w1 w2, fst (m w1) = fst (m w2) /\ w_rng (snd (m w1)) = w_rng (snd (m w2)).
Proof.
  intros E U runs fs o rs fresh Ht Hn Hrs m w1 w2. unfold m. clear m.
  destruct fs as [|f0 fs0] eqn:Hfs; [rewrite !diagram_none by auto; auto|].
  assert (Hfq : fs <> []) by (rewrite Hfs; discriminate). rewrite <- Hfs. clear Hfs f0 fs0. rewrite !diagram_run by auto.
  destruct (_ && _)%bool; [|auto].
  set (s := match rs with Some z => _ | None => _ end).
  pose proof (loop_thin U fs o rs fresh runs (w_rng w1) (w_rng w2) Ht Hn (mkW s (w_warn w1))) as Hl.
  pose proof (uniform_same _ _ _ (mkW s (w_warn w1)) (mkW s (w_warn w2)) (uniform_loop U fs o rs fresh runs (w_rng w2)) eq_refl) as [Hf Hg].
  destruct (loop U fs o rs fresh runs (w_rng w1) (mkW s (w_warn w1))) as [[[x1 st1]|e1] v1],
           (loop U fs o rs fresh runs (w_rng w2) (mkW s (w_warn w1))) as [[[x2 st2]|e2] v2]; try contradiction;
    destruct (loop U fs o rs fresh runs (w_rng w2) (mkW s (w_warn w2))) as [[[x3 st3]|e3] v3]; cbn [fst snd w_rng] in *; try discriminate.
  - destruct Hl as (Hl & _). split; congruence.
  - destruct Hl as (-> & ->). split; congruence.
Qed.

(** A seed which np.random.seed does not accept: nothing is plotted or changed,
    whatever the other arguments. *)
Theorem C55_bad_seed : forall E z (w : world E), ~ (0 <= z < 4294967296)%Z ->
    (forall runs fthetas nlabels nlims n_simulate fresh,
       bs_param_dists runs fthetas nlabels nlims n_simulate (Some z) fresh w = (Raise ValueError, w)) /\
    (forall U runs fthetas o fresh, param_logx_diagram U runs fthetas o (Some z) fresh w = (Raise ValueError, w)).
Proof.
  intros E z w Hz. split; intros.
  - unfold bs_param_dists. unfold wbind at 1, get_state. unfold wbind at 1. rewrite seed_with_bad by auto. reflexivity.
  - eapply diagram_bad; eauto.
Qed.
Print Assumptions C55_bad_seed.
Example C55_bad_seed_example : ~ (0 <= -1 < 4294967296)%Z /\ ~ (0 <= 4294967296 < 4294967296)%Z.
Proof. lia. Qed.
