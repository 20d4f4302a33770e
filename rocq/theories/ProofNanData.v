(** Processing samples without nan is the processing of integers in the same
    order. *)
From Verif Require Import Base ModelRun ModelData ModelNan ModelNanData ProofBase ProofMonad Spec SpecRun
     ProofRun ProofBirth ProofThreads2 ProofMono PropNan.

Definition keeps_order (g : num -> Z) (vals : list num) : Prop :=
  forall a b, In a vals -> In b vals -> (g a <= g b <-> ext_le a b).
Definition same_sort (S : sorter) (E : env) : Prop :=
  forall g l, keeps_order g l -> nsort S l = argsort E (map g l).
Definition samp_of (g : num -> Z) (h : list num -> list Z) (s : nsamp) : samp :=
  mkSamp (h (ns_theta s)) (g (ns_logl s)) (g (ns_birth s)).
Definition mm_of (g : num -> Z) (mm : num * num) : ext * Z :=
  (match fst mm with NegInf => NInf | x => Fin (g x) end, g (snd mm)).
Definition run_of (g : num -> Z) (h : list num -> list Z) (p : prun) : run :=
  mkRun (map g (p_logl p)) (map h (p_theta p)) (p_nlive p) (Some (p_labels p))
        (Some (map (mm_of g) (p_tmm p))) None None.

Lemma keeps_incl : forall g vals l, keeps_order g vals -> incl l vals -> keeps_order g l.
Proof. intros g vals l H1 H2 a b Ha Hb. apply H1; auto. Qed.

Section Order.
Variable g : num -> Z.
Variable vals : list num.
Hypothesis Hg : keeps_order g vals.
Variable h : list num -> list Z.

Lemma k_nan : forall a, In a vals -> a <> Nan.
Proof.
  intros a Ha ->. assert (H : ext_le Nan Nan) by (apply Hg; auto; lia).
  apply num_leb_spec in H. discriminate.
Qed.
Lemma k_leb : forall a b, In a vals -> In b vals -> num_leb a b = (g a <=? g b).
Proof.
  intros a b Ha Hb. apply eq_true_iff_eq. rewrite num_leb_spec, Z.leb_le. symmetry. apply Hg; auto.
Qed.
Lemma k_inj : forall a b, In a vals -> In b vals -> g a = g b -> a = b.
Proof. intros a b Ha Hb H. apply ext_le_antisym; apply Hg; auto; lia. Qed.
Lemma k_eqb : forall a b, In a vals -> In b vals -> num_eqb a b = (g a =? g b).
Proof.
  intros a b Ha Hb. apply eq_true_iff_eq. rewrite num_eqb_spec, Z.eqb_eq. split.
  - intros [-> _]. auto.
  - intros H. split; [apply k_inj; auto|apply k_nan; auto].
Qed.
Lemma k_where : forall v l, In v vals -> incl l vals ->
    where_ (num_eqb v) l = where_ (Z.eqb (g v)) (map g l).
Proof.
  intros v l Hv Hl. rewrite mono_where. unfold where_. generalize 0%nat.
  induction l as [|x t IH]; simpl; intros; auto.
  rewrite k_eqb by (auto; apply Hl; simpl; auto). rewrite IH; auto. intros y Hy. apply Hl. simpl; auto.
Qed.
Lemma k_nth : forall l i, (i < length l)%nat -> nth i (map g l) 0 = g (nth i l Nan).
Proof. intros. apply map_nth_in. auto. Qed.
Lemma k_take : forall l idx, Forall (fun i => (i < length l)%nat) idx ->
    take 0 (map g l) idx = map g (take Nan l idx).
Proof.
  intros. unfold take. rewrite map_map. apply map_ext_Forall. eapply Forall_impl; [|eauto].
  intros i Hi. apply k_nth. auto.
Qed.
Lemma take_incl : forall l idx, incl l vals -> Forall (fun i => (i < length l)%nat) idx ->
    incl (take Nan l idx) vals.
Proof.
  intros l idx Hl Hi x Hx. unfold take in Hx. apply in_map_iff in Hx as (i & <- & Hx).
  rewrite Forall_forall in Hi. apply Hl, nth_In. auto.
Qed.

Lemma k_nums_eqb : forall l m, incl l vals -> incl m vals ->
    nums_eqb l m = list_eqb (map g l) (map g m).
Proof.
  induction l as [|x t IH]; intros [|y m] Hl Hm; simpl; auto.
  rewrite (k_eqb x y (Hl x (or_introl eq_refl)) (Hm y (or_introl eq_refl))). rewrite IH; auto.
  - intros z Hz. apply Hl. simpl; auto.
  - intros z Hz. apply Hm. simpl; auto.
Qed.
Lemma k_NoDup : forall l, incl l vals -> (NoDup (map g l) <-> NoDup l).
Proof.
  induction l as [|x t IH]; intros Hl; simpl; [split; constructor|].
  assert (Ht : incl t vals) by (intros z Hz; apply Hl; simpl; auto).
  split; intros H; inversion H as [|? ? A B]; subst; constructor; try (apply IH; auto).
  - intros Hx. apply A, in_map. auto.
  - rewrite in_map_iff. intros (y & Hy & Hy'). apply k_inj in Hy; [subst; auto| |]; apply Hl; simpl; auto.
Qed.
Lemma k_repeats : forall l, incl l vals ->
    (length l - length (nodup num_eq_dec l) =? 0)%nat
    = (length (map g l) - length (unique (map g l)) =? 0)%nat.
Proof.
  intros l Hl. apply eq_true_iff_eq. rewrite nodup_len, <- k_NoDup, <- unique_length_NoDup by auto.
  rewrite Nat.eqb_eq. assert (Hle : (length (unique (map g l)) <= length (map g l))%nat).
  { apply NoDup_incl_length; [apply unique_NoDup|]. intros x. rewrite in_unique. auto. }
  lia.
Qed.

Section Env.
Variable E : env.
Variable S : sorter.
Hypothesis HS : same_sort S E.

Lemma nsort_lt : forall l, Forall (fun i => (i < length l)%nat) (nsort S l).
Proof.
  intros. rewrite Forall_forall. intros i Hi.
  apply (Permutation_in _ (nsort_perm S l)) in Hi. apply in_seq in Hi. lia.
Qed.
Lemma k_logls : forall lg da dw (w : world E), incl lg vals ->
    check_ns_run_logls (map g lg) da dw w = ncheck_logls S lg da dw w.
Proof.
  intros lg da dw w Hl. unfold check_ns_run_logls, ncheck_logls.
  rewrite <- (HS g lg) by (eapply keeps_incl; eauto).
  rewrite k_take by apply nsort_lt. rewrite k_repeats by auto.
  rewrite (k_nums_eqb lg) by (auto; apply take_incl; auto using nsort_lt). reflexivity.
Qed.
Lemma k_draw : forall births bl dd (w : world E), incl births vals -> In bl vals ->
    Forall (fun i => (i < length births)%nat) dd ->
    draw_deaths (map g births) (g bl) dd w = ndraw_deaths births bl dd w.
Proof.
  intros births bl dd w Hb Hbl Hd. unfold draw_deaths, ndraw_deaths.
  rewrite k_take, <- k_where by auto.
  assert (He : forallb (neqb (g bl)) (map g (take Nan births dd)) =
               forallb (fun x => negb (num_eqb bl x)) (take Nan births dd)).
  { pose proof (take_incl _ _ Hb Hd) as Hi.
    induction (take Nan births dd) as [|x t IH]; simpl; auto. unfold neqb at 1.
    rewrite <- k_eqb by (auto; apply Hi; simpl; auto). rewrite IH; auto.
    intros y Hy. apply Hi. simpl; auto. }
  rewrite He. reflexivity.
Qed.
Lemma zwhere_lt : forall (p : Z -> bool) l i, In i (where_ p l) -> (i < length l)%nat.
Proof. intros p l i H. apply (in_where _ _ 0) in H. tauto. Qed.
Lemma nwhere_lt : forall (p : num -> bool) l i, In i (where_ p l) -> (i < length l)%nat.
Proof. intros p l i H. apply (in_where _ _ Nan) in H. tauto. Qed.
Lemma k_step : forall births logls bi i (w : world E),
    incl births vals -> incl logls vals ->
    length births = length logls -> (i < length births)%nat ->
    birth_step (map g births) (map g logls) bi i w = nbirth_step births logls bi i w.
Proof.
  intros births logls bi i w Hb Hlg Hl Hi. unfold birth_step, nbirth_step. destruct (nth i bi None); auto.
  assert (Hin : In (nth i births Nan) vals) by (apply Hb, nth_In; auto).
  rewrite k_nth by auto. rewrite <- !k_where by auto.
  assert (Hd : Forall (fun j => (j < length births)%nat) (where_ (num_eqb (nth i births Nan)) logls)).
  { rewrite Forall_forall. intros j Hj. rewrite Hl. eapply nwhere_lt; eauto. }
  destruct (where_ (num_eqb (nth i births Nan)) logls) as [|d [|d2 t]]; auto;
  unfold wbind; match goal with |- context [wassert ?b w] => destruct (wassert b w) as [[u|e] w1] end; auto;
  rewrite k_draw; auto.
Qed.
Lemma k_loop : forall births logls (w : world E), incl births vals -> incl logls vals ->
    length births = length logls ->
    birth_loop (map g births) (map g logls) w = nbirth_loop births logls w.
Proof.
  intros births logls w Hb Hlg Hl. unfold birth_loop, nbirth_loop. destruct births as [|b0 bt]; auto.
  change (item0 (map g (b0 :: bt))) with (Ok (g b0)). unfold wbind at 1, wlift.
  assert (H1 : forallb (fun '(x, y) => x <=? y) (combine (map g (b0 :: bt)) (map g logls)) =
               forallb (fun '(x, y) => num_leb x y) (combine (b0 :: bt) logls)).
  { revert Hb Hlg. generalize (b0 :: bt) as l. clear Hl. intros l. revert logls.
    induction l as [|x t IH]; intros [|y m] A B; simpl; auto.
    rewrite (k_leb x y (A x (or_introl eq_refl)) (B y (or_introl eq_refl))). rewrite IH; auto.
    - intros z Hz. apply A. simpl; auto.
    - intros z Hz. apply B. simpl; auto. }
  rewrite H1.
  assert (H2 : map (fun x => if x =? g b0 then Some (-1) else None) (map g (b0 :: bt)) =
               map (fun x => if num_eqb x b0 then Some (-1) else None) (b0 :: bt)).
  { rewrite map_map. apply map_ext_in. intros x Hx. rewrite k_eqb; auto. apply Hb. simpl; auto. }
  rewrite H2, map_length. unfold wbind.
  match goal with |- context [wassert ?b w] => destruct (wassert b w) as [[u|e] w1] end; auto.
  rewrite (wfoldM_ext _ _ _ (nbirth_step (b0 :: bt) logls) (birth_step (map g (b0 :: bt)) (map g logls))).
  - reflexivity.
  - intros s i w2 Hi. apply in_seq in Hi. apply k_step; auto. lia.
Qed.
Lemma k_birth_inds : forall births logls da dw (w : world E), incl births vals -> incl logls vals ->
    length births = length logls ->
    birth_inds_given_contours (map g births) (map g logls) da dw w = nbirth_inds S births logls da dw w.
Proof.
  intros births logls da dw w Hb Hlg Hl. unfold birth_inds_given_contours, nbirth_inds, wbind.
  rewrite k_logls by auto. destruct (ncheck_logls S logls da dw w) as [[u|e] w1]; auto.
  cbn [get_state]. destruct (seed 0 w1) as [[v|e] w2]; auto. rewrite k_loop; auto.
Qed.

Definition st_of (st : list (num * num) * list Z) : list (ext * Z) * list Z :=
  (map (mm_of g) (fst st), snd st).
Lemma k_thread_step : forall lg bi labs st label, incl lg vals ->
    length labs = length lg -> length bi = length lg -> In label labs ->
    Forall (fun b => b < Z.of_nat (length lg)) bi ->
    (forall b, In b bi -> b <> nth 0 bi 0 -> nth (Z.to_nat b) lg Nan <> NegInf) ->
    lg <> [] ->
    thread_step (map g lg) bi labs (st_of st) label = rmap st_of (nthread_step lg bi labs st label).
Proof.
  intros lg bi labs [tmm delta] label Hlg Hl Hlb Hin Hb Hninf Hne. unfold thread_step, nthread_step, st_of.
  cbn [fst snd].
  assert (Hw : where_ (Z.eqb label) labs <> []).
  { apply where_nonempty. exists label. split; auto. apply Z.eqb_refl. }
  assert (Hlast : (last (where_ (Z.eqb label) labs) 0%nat < length lg)%nat).
  { rewrite <- Hl. apply (zwhere_lt (Z.eqb label)), last_In'; auto. }
  assert (Hfirst : (hd 0%nat (where_ (Z.eqb label) labs) < length bi)%nat).
  { rewrite Hlb, <- Hl. apply (zwhere_lt (Z.eqb label)), hd_In; auto. }
  rewrite (k_nth _ _ Hlast).
  set (sb := nth (hd 0%nat (where_ (Z.eqb label) labs)) bi 0).
  assert (Hsbin : In sb bi) by (apply nth_In; auto).
  assert (Hsb : (Z.to_nat sb < length lg)%nat).
  { rewrite Forall_forall in Hb. specialize (Hb _ Hsbin). destruct lg; [congruence|]. simpl length in *. lia. }
  destruct (Z.eqb_spec sb (nth 0 bi 0)) as [He|He].
  - cbn [rmap fst snd]. rewrite map_app. reflexivity.
  - destruct (assertb (0 <=? sb)); auto. cbn [rbind rmap fst snd].
    rewrite (k_nth _ _ Hsb), map_app. cbn [map mm_of fst snd]. unfold mm_of. cbn [fst snd].
    specialize (Hninf _ Hsbin He). destruct (nth (Z.to_nat sb) lg Nan); auto. congruence.
Qed.

Lemma k_sort : forall l, incl (map ns_logl l) vals ->
    sort_samps E (map (samp_of g h) l) = map (samp_of g h) (nsort_samps S l).
Proof.
  intros l Hl. unfold sort_samps, nsort_samps.
  assert (He : map s_logl (map (samp_of g h) l) = map g (map ns_logl l)) by (rewrite !map_map; auto).
  rewrite He, <- (HS g) by (eapply keeps_incl; eauto).
  pose proof (nsort_lt (map ns_logl l)) as H. rewrite map_length in H.
  unfold take. rewrite map_map. apply map_ext_Forall. eapply Forall_impl; [|exact H].
  intros i Hi. apply map_nth_in. auto.
Qed.
Lemma sort_in : forall l s, In s (nsort_samps S l) -> In s l.
Proof.
  intros l s Hs. unfold nsort_samps, take in Hs. apply in_map_iff in Hs as (i & <- & Hi).
  pose proof (nsort_lt (map ns_logl l)) as H. rewrite Forall_forall in H. apply H in Hi.
  rewrite map_length in Hi. apply nth_In; auto.
Qed.

Lemma k_process : forall samples da dw (w : world E),
    incl (map ns_logl samples) vals -> incl (map ns_birth samples) vals ->
    process_samples_array (map (samp_of g h) samples) da dw w =
    (rmap (run_of g h) (fst (nprocess S samples da dw w)), snd (nprocess S samples da dw w)).
Proof.
  intros samples da dw w I1 I2. unfold process_samples_array, nprocess. rewrite k_sort by auto.
  assert (J1 : incl (map ns_logl (nsort_samps S samples)) vals).
  { intros x Hx. apply in_map_iff in Hx as (s & <- & Hs). apply I1, in_map, sort_in. auto. }
  assert (J2 : incl (map ns_birth (nsort_samps S samples)) vals).
  { intros x Hx. apply in_map_iff in Hx as (s & <- & Hs). apply I2, in_map, sort_in. auto. }
  revert J1 J2. generalize (nsort_samps S samples). clear samples I1 I2. intros l J1 J2.
  assert (Hlg : map s_logl (map (samp_of g h) l) = map g (map ns_logl l)) by (rewrite !map_map; auto).
  assert (Hbt : map s_birth (map (samp_of g h) l) = map g (map ns_birth l)) by (rewrite !map_map; auto).
  assert (Hth : map s_theta (map (samp_of g h) l) = map h (map ns_theta l)) by (rewrite !map_map; auto).
  rewrite Hlg, Hbt, Hth, map_length.
  assert (Hlen : length (map ns_birth l) = length (map ns_logl l)) by (rewrite !map_length; auto).
  pose proof (birth_inds_spec (map g (map ns_birth l)) (map g (map ns_logl l))
                ltac:(rewrite !map_length; auto) E da dw w) as Hspec.
  unfold wbind, wlift. rewrite k_birth_inds in * by auto.
  destruct (nbirth_inds S (map ns_birth l) (map ns_logl l) da dw w) as [[bi|e] w1] eqn:Hb; auto.
  rewrite <- k_birth_inds in Hb by auto.
  assert (Hlen2 : length (map g (map ns_birth l)) = length (map g (map ns_logl l)))
    by (rewrite !map_length; auto).
  destruct (births_returned _ _ _ _ _ _ _ _ Hlen2 Hb) as (Hl1 & Hon). clear Hlen2.
  destruct Hspec as (_ & Hsorted & Hle & _).
  assert (Hne : l <> []).
  { intros ->. unfold birth_inds_given_contours in Hb. winv. unfold birth_loop in *. winv. }
  assert (Hl2 : length bi = length l) by (rewrite Hl1, !map_length; auto).
  assert (Hl0 : (0 < length l)%nat) by (destruct l; [congruence|simpl; lia]).
  assert (Hrange : forall i, (i < length bi)%nat -> -1 <= nth i bi 0 < Z.of_nat (length l)).
  { intros i Hi. rewrite Hl1 in Hi. destruct (Hon i Hi) as [G1 G2].
    destruct (Z.eq_dec (nth i (map g (map ns_birth l)) 0) (nth 0 (map g (map ns_birth l)) 0)) as [He|He].
    - rewrite (G1 He). lia.
    - destruct (G2 He) as [G3 _]. rewrite !map_length in G3. lia. }
  assert (Hm0 : nth 0 bi 0 = -1) by (apply (Hon 0%nat); auto; lia).
  assert (Hm1 : In (-1) bi) by (rewrite <- Hm0; apply nth_In; lia).
  assert (Hge : forall x, In x bi -> -1 <= x < Z.of_nat (length l)).
  { intros x Hx. destruct (In_nth _ _ 0 Hx) as (i & Hi & <-). auto. }
  assert (Hninf : forall b, In b bi -> b <> nth 0 bi 0 -> nth (Z.to_nat b) (map ns_logl l) Nan <> NegInf).
  { intros b Hb1 Hb2 Hb3. destruct (In_nth _ _ 0 Hb1) as (i & Hi & Hib).
    rewrite Hl1 in Hi. destruct (Hon i Hi) as [G1 G2].
    destruct (Z.eq_dec (nth i (map g (map ns_birth l)) 0) (nth 0 (map g (map ns_birth l)) 0)) as [He|He].
    - apply Hb2. rewrite <- Hib, Hm0. apply G1. auto.
    - destruct (G2 He) as [G3 G4]. rewrite Hib in G3, G4. rewrite !map_length in G3, Hi.
      assert (Hil : (i < length (map ns_birth l))%nat) by (rewrite map_length; auto).
      assert (H0l : (0 < length (map ns_birth l))%nat) by (rewrite map_length; auto).
      assert (H0g : (0 < length (map ns_logl l))%nat) by (rewrite map_length; auto).
      assert (Hbl : (Z.to_nat b < length (map ns_logl l))%nat) by (rewrite map_length; lia).
      rewrite k_nth in G4 by auto. rewrite k_nth in G4 by auto. rewrite Hb3 in G4.
      rewrite !k_nth in He by auto.
      specialize (Hle 0%nat ltac:(rewrite !map_length; auto)). rewrite !k_nth in Hle by auto.
      assert (Hs0 : g (nth 0 (map ns_logl l) Nan) <= g NegInf).
      { rewrite <- Hb3, <- !k_nth by auto. destruct (Z.to_nat b) as [|b'] eqn:Hbz; [lia|].
        destruct (map g (map ns_logl l)) as [|x t] eqn:Hx; [destruct l; simpl in *; congruence|].
        inversion Hsorted as [|? ? A B]; subst. simpl. rewrite Forall_forall in B. apply B.
        apply nth_In. assert (Hlen2 : length (x :: t) = length l) by (rewrite <- Hx, !map_length; auto).
        simpl in Hlen2. rewrite map_length in Hbl. lia. }
      assert (HinN : In NegInf vals) by (apply J1; rewrite <- Hb3; apply nth_In; auto).
      assert (HinB : In (nth 0 (map ns_birth l) Nan) vals) by (apply J2, nth_In; auto).
      assert (Hlow : g NegInf <= g (nth 0 (map ns_birth l) Nan)).
      { apply Hg; auto. constructor. apply k_nan; auto. }
      apply He. lia. }
  destruct (threads_given_birth_inds bi w1) as [[labs|e] w2] eqn:Ht; auto.
  pose proof (threads_length _ _ _ _ _ Hm1 (fun x Hx => proj1 (Hge x Hx)) Ht) as Hll.
  destruct (wassert (list_eqb (unique labs) (zrange (length (unique labs)))) w2) as [[u|e] w3]; auto.
  replace (Datatypes.S (length l)) with (length l + 1)%nat by lia.
  pose proof (rmap_foldM _ _ _ st_of
                (nthread_step (map ns_logl l) bi labs) (thread_step (map g (map ns_logl l)) bi labs)
                (unique labs) ([], repeat 0 (length l + 1)%nat)) as Hfold.
  change (st_of ([], repeat 0 (length l + 1)%nat)) with (@nil (ext * Z), repeat 0 (length l + 1)%nat) in Hfold.
  rewrite Hfold.
  - destruct (foldM (nthread_step (map ns_logl l) bi labs) (unique labs) ([], repeat 0 (length l + 1)%nat))
      as [[tmm delta]|e]; reflexivity.
  - intros st label Hin. apply k_thread_step; rewrite ?map_length; auto; try congruence.
    + apply (proj1 (in_unique _ _)) in Hin. auto.
    + rewrite Forall_forall. intros x Hx. apply Hge in Hx. lia.
    + intros Hn. apply map_eq_nil in Hn. auto.
Qed.
End Env.
End Order.

(** ** A map which keeps the order exists. *)
Definition finite_vals (vals : list num) : list Z :=
  flat_map (fun a => match a with Num z => [z] | _ => [] end) vals.
Definition clip (lo hi : Z) (a : num) : Z :=
  match a with NegInf => lo | Num z => z | PosInf => hi | Nan => 0 end.
Lemma clip_keeps : forall vals lo hi, ~ In Nan vals -> lo < hi ->
    Forall (fun z => lo < z < hi) (finite_vals vals) -> keeps_order (clip lo hi) vals.
Proof.
  intros vals lo hi Hn Hlh Hf a b Ha Hb. rewrite <- num_leb_spec. rewrite Forall_forall in Hf.
  assert (Hin : forall z, In (Num z) vals -> lo < z < hi).
  { intros z Hz. apply Hf. apply in_flat_map. exists (Num z). simpl. auto. }
  destruct a, b; simpl; try congruence; try (exfalso; apply Hn; assumption);
    repeat match goal with H : In (Num _) vals |- _ => apply Hin in H end;
    try (split; [discriminate || lia || auto|discriminate || lia || auto]); rewrite ?Z.leb_le; lia.
Qed.
Lemma order_exists : forall vals, ~ In Nan vals -> exists g, keeps_order g vals.
Proof.
  intros vals Hn.
  assert (H : exists lo hi, lo < hi /\ Forall (fun z => lo < z < hi) (finite_vals vals)).
  { induction (finite_vals vals) as [|z t (lo & hi & H1 & H2)]; [exists 0, 1; split; [lia|constructor]|].
    exists (Z.min lo (z - 1)), (Z.max hi (z + 1)). split; [lia|]. constructor; [lia|].
    eapply Forall_impl; [|exact H2]. simpl. intros; lia. }
  destruct H as (lo & hi & H1 & H2). exists (clip lo hi). apply clip_keeps; auto.
Qed.
