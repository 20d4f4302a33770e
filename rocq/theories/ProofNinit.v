(** When resampling with ninit_sep succeeds (C62). *)
From Verif Require Import Base ModelRun ModelBoot Envs ProofBase ProofMonad Spec SpecRun ProofRun ProofDict
     ProofProcess ProofComb ProofRuns ProofJoin ProofTies ProofBoot.

Section Ninit.
Variables (r : run) (labs : list Z) (tmm : list (ext * Z)).
Hypothesis Hcon : consistent r labs tmm.
Hypothesis Hinc : forall i j, (i < j < length (logl r))%nat -> nth i labs 0 = nth j labs 0 ->
                              nth i (logl r) 0 < nth j (logl r) 0.
Hypothesis Habove : forall k f, (k < length tmm)%nat -> first_of labs (Z.of_nat k) f ->
     starts_below (fst (nth k tmm (NInf, 0))) (nth f (logl r) 0) = true.

Let ths := map (fun k => nth_thread r labs (Z.of_nat k) (nth k tmm (NInf, 0))) (seq 0 (length tmm)).
Let dth := nth_thread r labs 0 (NInf, 0).
Let spec k : run * (Z * (ext * Z)) :=
  (nth_thread r labs (Z.of_nat k) (nth k tmm (NInf, 0)), (Z.of_nat k, nth k tmm (NInf, 0))).

Lemma spec_ok : forall k, (k < length tmm)%nat -> ts_ok (spec k).
Proof. intros k Hk. apply nth_thread_ok; auto. Qed.
Lemma spec_strict : forall k, (k < length tmm)%nat -> StronglySorted Z.lt (logl (fst (spec k))).
Proof.
  intros k Hk. unfold spec. cbn [fst]. unfold nth_thread. cbn [logl].
  apply ssorted_map. apply (ssorted_weaken _ lt).
  - intros x y Hx Hy Hxy. apply where_label in Hx as [X1 X2]. apply where_label in Hy as [Y1 Y2].
    apply Hinc; [|congruence]. destruct Hcon as (_ & _ & _ & V2 & _). lia.
  - apply where_sorted.
Qed.
Lemma spec_label : forall k, (k < length tmm)%nat -> In (Z.of_nat k) labs.
Proof.
  intros k Hk. destruct Hcon as (_ & _ & _ & _ & _ & _ & _ & V6 & _). rewrite map_length in V6.
  apply V6. lia.
Qed.
Lemma spec_first : forall k, (k < length tmm)%nat ->
    exists p, first_of labs (Z.of_nat k) p /\ nth 0 (logl (fst (spec k))) 0 = nth p (logl r) 0.
Proof.
  intros k Hk. pose proof (hd_first _ _ (spec_label k Hk)) as Hf. eexists. split; [exact Hf|].
  unfold spec, nth_thread. cbn [fst logl]. rewrite nth_take.
  - rewrite <- hd_nth. auto.
  - pose proof (at_ne _ _ _ (spec_ok k Hk)) as Hne. unfold spec, nth_thread in Hne. cbn [fst logl] in Hne.
    destruct (thread_inds labs (Z.of_nat k)); [exfalso; apply Hne; reflexivity|simpl; lia].
Qed.
Lemma spec_point : forall k i, (i < length labs)%nat -> nth i labs 0 = Z.of_nat k ->
    In (nth i (logl r) 0) (logl (fst (spec k))).
Proof.
  intros k i Hi Hl. unfold spec, nth_thread, take. cbn [fst logl].
  apply (in_map (fun i => nth i (logl r) 0)). apply where_label. auto.
Qed.
Lemma spec_rows : forall k z l, (k < length tmm)%nat -> In (spec k) l -> In z (logl (fst (spec k))) ->
    In z (map r_logl (ts_rows l)).
Proof.
  intros k z l Hk Hin Hz. destruct (thread_rows_cols _ _ _ (spec_ok k Hk)) as (R1 & _).
  rewrite <- R1 in Hz. apply in_map_iff in Hz as (x & X1 & X2). apply in_map_iff. exists x. split; auto.
  unfold ts_rows. apply in_flat_map. exists (spec k). auto.
Qed.

Variable ninit : nat.
Hypothesis Hninit : (0 < ninit <= length tmm)%nat.
Hypothesis Hstarts : forall k, (k < length tmm)%nat -> fst (nth k tmm (NInf, 0)) = NInf <-> (k < ninit)%nat.

Theorem combine_ninit : forall E a c (w : world E), a <> [] ->
    (forall j, In j a -> (j < ninit)%nat) -> (forall k, In k c -> (ninit <= k < length tmm)%nat) ->
    (forall j k s, In j a -> In k c -> fst (nth k tmm (NInf, 0)) = Fin s -> supports r labs tmm j k s) ->
    exists rr, combine_threads (map (fun i => nth i ths dth) (a ++ c)) false w = (Ok rr, w).
Proof.
  intros E a c w Hne Ha Hc Hsup.
  destruct a as [|j a']; [congruence|]. clear Hne.
  assert (Hj : (j < ninit)%nat) by (apply Ha; left; auto).
  assert (Hlt : forall i, In i ((j :: a') ++ c) -> (i < length tmm)%nat).
  { intros i Hi. apply in_app_or in Hi as [Hi|Hi]; [specialize (Ha i Hi); lia|apply Hc; auto]. }
  set (inds := (j :: a') ++ c) in *.
  assert (Hinj : In (spec j) (map spec inds)) by (apply in_map; left; auto).
  assert (Hdyn : forall k s, In k inds -> fst (nth k tmm (NInf, 0)) = Fin s -> In k c).
  { intros k s Hk Hs. apply in_app_or in Hk as [Hk|Hk]; auto. exfalso.
    rewrite (proj2 (Hstarts k ltac:(specialize (Ha k Hk); lia)) (Ha k Hk)) in Hs. discriminate. }
  assert (D1 : map (fun i => nth i ths dth) inds = map fst (map spec inds)).
  { rewrite map_map. apply map_ext_in. intros i Hi. unfold ths. rewrite nth_map_seq by auto. auto. }
  destruct (spec_first j ltac:(lia)) as (f & F1 & F2).
  destruct (join_near E (map spec inds) w) as (rr & bs & J1 & _).
  - intros H. apply map_eq_nil in H. discriminate.
  - intros x Hx. apply in_map_iff in Hx as [k [<- Hk]]. apply spec_ok. auto.
  - intros x Hx. apply in_map_iff in Hx as [k [<- Hk]]. apply spec_strict. auto.
  - intros m e Hin. unfold ts_tmm in Hin. rewrite map_map in Hin. apply in_map_iff in Hin as [k [K1 K2]].
    unfold spec in K1. cbn [snd] in K1.
    assert (Hs : fst (nth k tmm (NInf, 0)) = Fin m) by (rewrite K1; auto).
    pose proof (Hdyn k m K2 Hs) as Hkc. destruct (spec_first k (Hlt k K2)) as (p & P1 & P2).
    destruct (Hsup j k m (or_introl eq_refl) Hkc Hs f p F1 P1) as [Hl _].
    assert (Hin : In (nth f (logl r) 0) (map r_logl (ts_rows (map spec inds)))).
    { apply (spec_rows j); auto; [lia|]. rewrite <- F2. apply nth_In.
      pose proof (at_ne _ _ _ (spec_ok j ltac:(lia))) as Hne. destruct (logl (fst (spec j))); [congruence|simpl; lia]. }
    destruct (min_list_spec (map r_logl (ts_rows (map spec inds)))) as [_ Hmin].
    { intros Hn. rewrite Hn in Hin. destruct Hin. }
    specialize (Hmin _ Hin). lia.
  - intros x s b Hx Hs Hb Heq. apply in_map_iff in Hx as [k [<- Hk]].
    unfold spec in Hs. cbn [snd] in Hs.
    pose proof (Hdyn k s Hk Hs) as Hkc. destruct (spec_first k (Hlt k Hk)) as (p & P1 & P2).
    destruct (Hsup j k s (or_introl eq_refl) Hkc Hs f p F1 P1) as [_ [He|(i & I1 & I2 & I3 & I4)]].
    + exists (spec j). split; auto. split.
      * unfold spec. cbn [snd]. apply Hstarts; lia.
      * rewrite P2. rewrite (at_last _ _ _ (spec_ok j ltac:(lia))). unfold spec. cbn [snd]. auto.
    + exfalso. pose proof (at_first _ _ _ (spec_ok k (Hlt k Hk))) as Hf.
      rewrite P2 in Heq, Hf. unfold spec in Hf. cbn [snd] in Hf. rewrite Hs in Hf. simpl in Hf. apply Z.ltb_lt in Hf.
      set (lg := map r_logl (sort_rows E (ts_rows (map spec inds)))) in *.
      destruct Hb as [B1 [B2|(B2 & B3 & B4)]]; [lia|].
      assert (Hin : In (nth i (logl r) 0) lg).
      { apply (Permutation_in _ (Permutation_sym (Permutation_map _ (sort_rows_perm E _)))).
        apply (spec_rows j); auto; [lia|]. apply spec_point; auto. }
      apply (In_nth _ _ 0) in Hin as (q & Q1 & Q2).
      destruct (Nat.lt_ge_cases q b) as [Hq|Hq].
      * specialize (B4 q Hq). rewrite Q2, Heq in B4. lia.
      * pose proof (ssorted_le_nth_le lg b q) as Hle. rewrite Q2, Heq in Hle.
        assert (nth p (logl r) 0 <= nth i (logl r) 0); [|lia].
        apply Hle; [apply sort_rows_sorted|lia].
  - exists rr. rewrite D1. auto.
Qed.

Theorem boot_ninit_ok : forall E b (w : world E), accepted_seed b -> settings r = Some (Some ninit) ->
    (forall j k s, (j < ninit)%nat -> (k < length tmm)%nat -> fst (nth k tmm (NInf, 0)) = Fin s ->
       supports r labs tmm j k s) ->
    exists rr w', bootstrap_resample_run r None true b w = (Ok rr, w').
Proof.
  intros E b w Hacc Hset Hsup.
  rewrite boot_form. unfold wbind at 1, get_state.
  assert (Hs : exists s, apply_seed b w = (Ok tt, mkW s (w_warn w))).
  { eexists. apply apply_seed_state; auto. }
  destruct Hs as [s Hs]. rewrite (wbind_run _ _ _ _ _ _ _ _ Hs).
  destruct (randint_ok E 0 ninit ninit (mkW s (w_warn w)) (or_introl (proj1 Hninit)))
    as (a & w1 & I1 & I2 & I3 & I4).
  assert (Hr2 : (ninit < length tmm)%nat \/ (length tmm - ninit)%nat = 0%nat) by lia.
  destruct (randint_ok E ninit (length tmm) (length tmm - ninit) w1 Hr2)
    as (c & w2 & J1 & J2 & J3 & J4).
  destruct (combine_ninit E a c w2) as (rr & C1).
  { intros ->. simpl in I2. lia. }
  { intros j Hj. apply I3; auto. }
  { intros k Hk. apply J3; auto. }
  { intros j k s0 Hj Hk Hs0. apply Hsup; auto; [apply I3; auto|apply J3; auto]. }
  assert (Hb : boot_body r None true (mkW s (w_warn w)) = (Ok (with_settings rr (settings r)), w2)).
  { unfold boot_body. rewrite (wbind_run _ _ _ _ _ _ _ _ (get_run_threads_spec E r labs tmm _ Hcon)).
    rewrite map_length, seq_length. unfold draw_inds. rewrite Hset.
    destruct Hcon as (_ & Htmm & _). rewrite Htmm.
    assert (Hni : forallb (fun mm => is_ninf (fst mm)) (firstn ninit tmm) = true).
    { apply forallb_forall. intros mm Hmm. apply (In_nth _ _ (NInf, 0)) in Hmm as (q & Q1 & Q2).
      rewrite firstn_length in Q1. rewrite nth_firstn' in Q2 by lia. subst mm.
      rewrite (proj2 (Hstarts q ltac:(lia)) ltac:(lia)). auto. }
    assert (Hd : (let* _ := wassert (forallb (fun mm => is_ninf (fst mm)) (firstn ninit tmm)) in
                  let* a0 := randint 0 ninit ninit in
                  if (length tmm <? ninit)%nat then wraise ValueError
                  else let* b0 := randint ninit (length tmm) (length tmm - ninit) in wret (a0 ++ b0))
                   (mkW s (w_warn w)) = (Ok (a ++ c), w2)).
    { rewrite (wbind_run _ _ _ _ _ _ _ _ (wassert_true E _ _ Hni)).
      rewrite (wbind_run _ _ _ _ _ _ _ _ I1).
      replace (length tmm <? ninit)%nat with false by (symmetry; apply Nat.ltb_ge; lia).
      rewrite (wbind_run _ _ _ _ _ _ _ _ J1). auto. }
    rewrite (wbind_run _ _ _ _ _ _ _ _ Hd).
    assert (Hrange : forall i, In i (a ++ c) -> (i < length ths)%nat).
    { unfold ths. rewrite map_length, seq_length. intros i Hi.
      apply in_app_or in Hi as [Hi|Hi]; [specialize (I3 i Hi); lia|apply J3; auto]. }
    rewrite (wbind_run _ _ _ _ _ _ _ _ (get_threads E ths (a ++ c) w2 dth Hrange)).
    rewrite (wbind_run _ _ _ _ _ _ _ _ C1). auto. }
  rewrite (wbind_run _ _ _ _ _ _ _ _ Hb).
  destruct (seeded b); eexists _, _; reflexivity.
Qed.

(** ** Draws for which it fails *)
Lemma first_position : forall (l : list Z) z, In z l -> StronglySorted Z.le l ->
    exists i, (i < length l)%nat /\ nth i l 0 = z /\ forall j, (j < i)%nat -> nth j l 0 < z.
Proof.
  induction l as [|x t IH]; intros z Hin Hs; [destruct Hin|].
  apply StronglySorted_inv in Hs as [S1 S2]. rewrite Forall_forall in S2.
  destruct (Z.eq_dec x z) as [->|Hx].
  - exists 0%nat. simpl. split; [lia|]. split; auto. intros; lia.
  - destruct Hin as [|Hin]; [congruence|]. destruct (IH z Hin S1) as (i & I1 & I2 & I3).
    exists (S i). simpl. split; [lia|]. split; auto. intros [|j] Hj.
    + specialize (S2 z Hin). lia.
    + apply I3. lia.
Qed.

Lemma countb_all_true : forall A (f : A -> bool) l, (forall x, In x l -> f x = true) -> countb f l = length l.
Proof.
  intros A f l H. induction l as [|x t IH]; auto. simpl. rewrite (H x (or_introl eq_refl)), IH; auto.
  intros; apply H; right; auto.
Qed.
Lemma attached_in : forall lg ss bs b, Forall2 (attached lg) ss bs -> In b bs ->
    exists s, In s ss /\ attached lg s b.
Proof.
  intros lg ss bs b H. induction H as [|s x ss' bs' Hx H IH]; intros Hb; [destruct Hb|].
  destruct Hb as [<-|Hb]; [exists s; split; [left; auto|auto]|].
  destruct (IH Hb) as (s' & S1 & S2). exists s'. split; [right; auto|auto].
Qed.
Lemma zsum_repeat : forall c n, zsum (repeat c n) = c * Z.of_nat n.
Proof. induction n as [|n IH]; [rewrite Z.mul_0_r; auto|]. cbn [repeat]. rewrite zsum_cons, IH. lia. Qed.
Lemma zsum_all_zero : forall A (f : A -> Z) l, (forall x, In x l -> f x = 0) -> zsum (map f l) = 0.
Proof.
  intros A f l H. induction l as [|x t IH]; auto. cbn [map].
  rewrite zsum_cons, (H x (or_introl eq_refl)), IH; auto. intros; apply H; right; auto.
Qed.

Theorem combine_ninit_fails : forall E j k s n m f p (w : world E), NoDup (logl r) ->
    (j < ninit)%nat -> (k < length tmm)%nat -> fst (nth k tmm (NInf, 0)) = Fin s ->
    (0 < n)%nat -> (0 < m)%nat ->
    first_of labs (Z.of_nat j) f -> first_of labs (Z.of_nat k) p -> nth f (logl r) 0 <> s ->
    (s < nth f (logl r) 0 \/
     snd (nth j tmm (NInf, 0)) <= nth p (logl r) 0 /\
     forall i, (i < length labs)%nat -> nth i labs 0 = Z.of_nat j -> nth i (logl r) 0 < nth p (logl r) 0 ->
               nth p (logl r) 0 - s < Z.abs (nth i (logl r) 0 - s)) ->
    combine_threads (map (fun i => nth i ths dth) (repeat j n ++ repeat k m)) false w = (Raise AssertionError, w).
Proof.
  intros E j k s n m f p w Hnd Hj Hk Hs Hn Hm Hf Hp Hfs Hbad.
  assert (Hjt : (j < length tmm)%nat) by lia.
  assert (Hks : s < nth p (logl r) 0).
  { pose proof (Habove k p Hk Hp) as H. rewrite Hs in H. apply Z.ltb_lt in H. auto. }
  assert (Hjk : j <> k).
  { intros ->. rewrite (proj2 (Hstarts k Hk) Hj) in Hs. discriminate. }
  set (inds := repeat j n ++ repeat k m).
  assert (Hinds : forall i, In i inds -> i = j \/ i = k).
  { intros i Hi. apply in_app_or in Hi as [Hi|Hi]; apply repeat_spec in Hi; auto. }
  assert (Hlt : forall i, In i inds -> (i < length tmm)%nat) by (intros i Hi; destruct (Hinds i Hi); subst; auto).
  assert (Hij : In j inds) by (apply in_or_app; left; destruct n; [lia|left; auto]).
  assert (Hik : In k inds) by (apply in_or_app; right; destruct m; [lia|left; auto]).
  assert (D1 : map (fun i => nth i ths dth) inds = map fst (map spec inds)).
  { rewrite map_map. apply map_ext_in. intros i Hi. unfold ths. rewrite nth_map_seq by auto. auto. }
  rewrite D1. set (l := map spec inds).
  assert (Hok : forall x, In x l -> ts_ok x) by (intros x Hx; apply in_map_iff in Hx as [i [<- Hi]]; apply spec_ok; auto).
  assert (Hstr : forall x, In x l -> StronglySorted Z.lt (logl (fst x)))
    by (intros x Hx; apply in_map_iff in Hx as [i [<- Hi]]; apply spec_strict; auto).
  assert (Hne : l <> []) by (intros H; apply map_eq_nil in H; rewrite H in Hij; destruct Hij).
  destruct (spec_first j Hjt) as (f' & F1 & F2). rewrite (first_unique _ _ _ _ F1 Hf) in F2. clear f' F1.
  destruct (spec_first k Hk) as (p' & P1 & P2). rewrite (first_unique _ _ _ _ P1 Hp) in P2. clear p' P1.
  assert (Hpf : forall q, (q < length tmm)%nat -> (0 < length (logl (fst (spec q))))%nat).
  { intros q Hq. pose proof (at_ne _ _ _ (spec_ok q Hq)) as H. destruct (logl (fst (spec q))); [congruence|simpl; lia]. }
  set (lgl := map r_logl (ts_rows l)).
  assert (Hfin : In (nth f (logl r) 0) lgl).
  { apply (spec_rows j); auto; [apply in_map; auto|]. rewrite <- F2. apply nth_In. auto. }
  assert (Hpin : In (nth p (logl r) 0) lgl).
  { apply (spec_rows k); auto; [apply in_map; auto|]. rewrite <- P2. apply nth_In. auto. }
  assert (Hfrom : forall z, In z lgl -> exists q i, (q = j \/ q = k) /\ (i < length labs)%nat /\ nth i labs 0 = Z.of_nat q /\
                                                   z = nth i (logl r) 0).
  { intros z Hz. unfold lgl in Hz. apply in_map_iff in Hz as (x & X1 & X2). unfold ts_rows in X2.
    apply in_flat_map in X2 as (y & Y1 & Y2). apply in_map_iff in Y1 as (q & <- & Q).
    destruct (thread_rows_cols _ _ _ (spec_ok q (Hlt q Q))) as (R1 & _).
    assert (Hz : In z (logl (fst (spec q)))) by (rewrite <- R1; subst z; apply in_map; auto).
    unfold spec, nth_thread, take in Hz. cbn [fst logl] in Hz. apply in_map_iff in Hz as (i & I1 & I2).
    apply where_label in I2 as [I2 I3]. exists q, i. auto. }
  assert (Hmin : forall q i, (q < length tmm)%nat -> (i < length labs)%nat -> nth i labs 0 = Z.of_nat q ->
             forall g, first_of labs (Z.of_nat q) g -> nth g (logl r) 0 <= nth i (logl r) 0).
  { intros q i Hq Hi Hl g (G1 & G2 & G3). destruct (Nat.lt_trichotomy g i) as [Hgi|[->|Hgi]]; [|lia|].
    - destruct Hcon as (_ & _ & _ & V2 & _). assert (nth g (logl r) 0 < nth i (logl r) 0); [|lia].
      apply Hinc; [lia|congruence].
    - exfalso. apply (G3 i); auto. }
  assert (Htne : ts_rows l <> []) by (intros H; unfold lgl in Hfin; rewrite H in Hfin; destruct Hfin).
  destruct (combine_threads_near E l w Hne Htne Hok) as (bs & B1 & B2). cbv zeta in B1, B2. rewrite B2. clear B2.
  set (sorted := sort_rows E (ts_rows l)) in *. set (rows := fold_left (fun l i => bump i l) bs sorted).
  assert (Hkey : map key rows = map key sorted) by apply fold_bump_key.
  destruct (keys_cols _ _ Hkey) as (K1 & _ & _).
  assert (Hlen : length rows = length sorted).
  { apply (f_equal (@length _)) in Hkey. rewrite !map_length in Hkey. auto. }
  set (lg := map r_logl sorted) in *.
  assert (Hperm : Permutation lg lgl) by (apply Permutation_map, sort_rows_perm).
  assert (Hss : StronglySorted Z.le lg) by apply sort_rows_sorted.
  assert (Hrne : rows <> []).
  { intros H. apply (f_equal (map r_logl)) in H. rewrite K1 in H. cbn [map] in H. rewrite H in Hperm.
    apply Permutation_nil in Hperm. rewrite Hperm in Hfin. destruct Hfin. }
  assert (Htmm : ts_tmm l = repeat (nth j tmm (NInf, 0)) n ++ repeat (nth k tmm (NInf, 0)) m).
  { unfold ts_tmm, l, inds. rewrite map_map, map_app. f_equal.
    - clear. induction n; cbn; auto. f_equal; auto.
    - clear. induction m; cbn; auto. f_equal; auto. }
  assert (Hst : finite_starts (ts_tmm l) = repeat s m).
  { rewrite Htmm. unfold finite_starts. rewrite flat_map_app.
    assert (H1 : flat_map (fun mm => match fst mm with NInf => [] | Fin z => [z] end) (repeat (nth j tmm (NInf, 0)) n) = []).
    { clear - Hj Hstarts Hjt. induction n as [|n IH]; auto. cbn [repeat flat_map].
      rewrite (proj2 (Hstarts j Hjt) Hj), IH. auto. }
    rewrite H1. cbn [app]. clear - Hs. induction m as [|m IH]; auto. cbn [repeat flat_map]. rewrite Hs, IH. auto. }
  assert (Hbsl : length bs = m) by (rewrite <- (Forall2_len _ _ _ _ _ B1), Hst; apply repeat_length).
  assert (Hbat : forall b, In b bs -> attached lg s b).
  { intros b Hb. destruct (attached_in _ _ _ _ B1 Hb) as (s' & S1 & S2). rewrite Hst in S1.
    apply repeat_spec in S1. subst s'. auto. }
  assert (Hlm : min_list (map r_logl rows) = min_list lgl).
  { rewrite K1. apply min_list_perm; auto. intros H. rewrite H in Hperm. apply Permutation_nil in Hperm.
    rewrite Hperm in Hfin. destruct Hfin. }
  assert (Hlgne : lgl <> []) by (intros H; rewrite H in Hfin; destruct Hfin).
  destruct (min_list_spec lgl Hlgne) as [Hm1 Hm2].
  assert (Hms : s <> min_list lgl).
  { destruct (Hfrom _ Hm1) as (q & i & Q1 & Q2 & Q3 & Q4). intros He. rewrite Q4 in He.
    pose proof (Hm2 _ Hfin) as Hle. rewrite Q4 in Hle.
    destruct Q1 as [-> | ->].
    - pose proof (Hmin j i Hjt Q2 Q3 f Hf). lia.
    - pose proof (Hmin k i Hk Q2 Q3 p Hp). lia. }
  assert (Hdup : countb (fun mm => ext_eqb (fst mm) (min_list (map r_logl rows))) (ts_tmm l) = 0%nat).
  { rewrite Hlm, Htmm. apply countb_zero. intros mm Hin. apply in_app_or in Hin as [Hin|Hin]; apply repeat_spec in Hin; subst mm.
    - rewrite (proj2 (Hstarts j Hjt) Hj). auto.
    - rewrite Hs. simpl. apply Z.eqb_neq. auto. }
  assert (Hd : dict_given_run_array rows (ts_tmm l) w = (Raise AssertionError, w)).
  2: { rewrite (wbind_raise _ _ _ _ _ _ _ _ Hd). auto. }
  rewrite dict_run by (auto; lia).
  set (nl := nl_of (n_start rows (ts_tmm l)) (map r_dn rows)).
  assert (Hnll : length nl = length sorted) by (unfold nl; rewrite nl_of_length, map_length; auto).
  assert (Hsp : (0 < length sorted)%nat) by (rewrite <- Hlen; destruct rows; [congruence|simpl; lia]).
  assert (Hbad' : (s < min_list lgl /\ 1 < last nl 0) \/ exists i, (i < length nl)%nat /\ nth i nl 0 <= 0).
  { destruct (Z_lt_le_dec s (nth f (logl r) 0)) as [Hsf|Hsf].
    - left. clear Hbad.
      assert (Hall : forall z, In z lgl -> s < z).
      { intros z Hz. destruct (Hfrom _ Hz) as (q & i & [-> | ->] & Q2 & Q3 & ->).
        - pose proof (Hmin j i Hjt Q2 Q3 f Hf). lia.
        - pose proof (Hmin k i Hk Q2 Q3 p Hp). lia. }
      split; [apply Hall; auto|].
      assert (Hn0 : n_start rows (ts_tmm l) = Z.of_nat (length l)).
      { unfold n_start. rewrite Hlm. f_equal. unfold ts_tmm. rewrite <- (map_length (fun x => snd (snd x)) l).
        fold (ts_tmm l). rewrite Htmm. apply countb_all_true. intros mm Hin.
        apply in_app_or in Hin as [Hin|Hin]; apply repeat_spec in Hin; subst mm.
        - rewrite (proj2 (Hstarts j Hjt) Hj). auto.
        - rewrite Hs. simpl. apply Z.leb_le. specialize (Hall _ Hm1). lia. }
      assert (Hb0 : forall b, In b bs -> b = 0%nat).
      { intros b Hb. destruct (Hbat b Hb) as [A1 A2]. 
        assert (Hb1 : In (nth b lg 0) lgl) by (apply (Permutation_in _ Hperm); apply nth_In; auto).
        destruct A2 as [A2|(_ & A2 & A3)]; [specialize (Hall _ Hb1); lia|].
        destruct b as [|b]; auto. exfalso. specialize (A3 0%nat ltac:(lia)).
        assert (H0 : In (nth 0 lg 0) lgl) by (apply (Permutation_in _ Hperm); apply nth_In; lia).
        pose proof (Hall _ Hb1). pose proof (Hall _ H0).
        pose proof (ssorted_le_nth_le lg 0 (S b) Hss ltac:(lia)). lia. }
      assert (H2 : (2 <= length sorted)%nat).
      { assert (Hl2 : length sorted = length lgl) by (rewrite <- (Permutation_length Hperm); unfold lg; rewrite map_length; auto).
        rewrite Hl2. destruct lgl as [|x [|y t]]; [congruence| |simpl; lia]. exfalso.
        destruct Hfin as [Hx|[]]. destruct Hpin as [Hy|[]]. rewrite Hx in Hy.
        destruct Hcon as (_ & _ & _ & V2 & _). destruct Hf as (G1 & G2 & _). destruct Hp as (G3 & G4 & _).
        assert (f = p) as -> by (apply (proj1 (NoDup_nth (logl r) 0) Hnd); auto; lia).
        rewrite G2 in G4. lia. }
      rewrite last_nth, Hnll. unfold nl, nl_of. rewrite nth_map_seq by (rewrite map_length; lia).
      unfold rows at 2. rewrite fold_bump_firstn.
      2: { intros b Hb. rewrite (Hb0 b Hb). auto. }
      assert (Hbz : zsum (map (fun b => Z.b2z (b <? length sorted - 1)%nat) bs) = Z.of_nat m).
      { rewrite <- Hbsl. clear - Hb0 H2. induction bs as [|b t IH]; auto. cbn [map length].
        rewrite zsum_cons, IH by (intros; apply Hb0; right; auto). rewrite (Hb0 b (or_introl eq_refl)).
        replace (0 <? length sorted - 1)%nat with true by (symmetry; apply Nat.ltb_lt; lia). cbn [Z.b2z]. lia. }
      rewrite Hbz, Hn0. pose proof (prefix_last E l Hok Hstr Hsp) as Hpl. fold sorted in Hpl. lia.
    - right. destruct Hbad as [Hbad|[He Hfar]]; [lia|].
      assert (Hsa : starts_above (ts_tmm l) (min_list (map r_logl rows))).
      { rewrite Hlm, Htmm. intros z e Hin. apply in_app_or in Hin as [Hin|Hin]; apply repeat_spec in Hin.
        - exfalso. rewrite <- Hin in *. pose proof (proj2 (Hstarts j Hjt) Hj) as H. rewrite <- Hin in H. discriminate.
        - rewrite <- Hin in Hs. cbn in Hs. injection Hs as ->. pose proof (Hm2 _ Hfin). lia. }
      destruct (n_start_ninf rows (ts_tmm l) Hsa) as [Hn0 _].
      destruct (first_position lg (nth p (logl r) 0)) as (i & I1 & I2 & I3); auto.
      { apply (Permutation_in _ (Permutation_sym Hperm)). auto. }
      assert (Hil : (i < length sorted)%nat) by (unfold lg in I1; rewrite map_length in I1; auto).
      exists i. split; [lia|]. unfold nl. rewrite (nl_nth _ rows i).
      + rewrite <- nth_logl by lia. rewrite K1. fold lg. rewrite I2.
        assert (Hbl : forall b, In b bs -> (b < length lg)%nat) by (intros b Hb; apply (Hbat b Hb)).
        pose proof (fold_bump_near (nth p (logl r) 0) lg bs sorted eq_refl Hbl) as Hds. fold rows in Hds. rewrite Hds.
        unfold sorted. rewrite (dsum_perm _ _ (ts_rows l)) by apply sort_rows_perm. rewrite ts_dsum by auto.
        rewrite Hn0.
        assert (Hz : zsum (map (fun b => Z.b2z (nth b lg 0 <? nth p (logl r) 0)) bs) = 0).
        { apply zsum_all_zero. intros b Hb. replace (nth b lg 0 <? nth p (logl r) 0) with false; auto.
          symmetry. apply Z.ltb_ge. destruct (Z_lt_le_dec (nth b lg 0) (nth p (logl r) 0)) as [Hbp|]; auto. exfalso.
          destruct (Hbat b Hb) as [A1 A2].
          assert (Hb1 : In (nth b lg 0) lgl) by (apply (Permutation_in _ Hperm); apply nth_In; auto).
          destruct (Hfrom _ Hb1) as (q & i' & Q1 & Q2 & Q3 & Q4). rewrite Q4 in *. destruct Q1 as [-> | ->].
          - specialize (Hfar i' Q2 Q3 Hbp). destruct A2 as [A2|(_ & A2 & _)]; [lia|].
            specialize (A2 i I1). rewrite I2 in A2. lia.
          - pose proof (Hmin k i' Hk Q2 Q3 p Hp). lia. }
        rewrite Hz, Htmm, map_app, zsum_app.
        assert (Hc1 : Z.of_nat (countb (fun mm => is_ninf (fst mm)) (repeat (nth j tmm (NInf, 0)) n ++ repeat (nth k tmm (NInf, 0)) m)) = Z.of_nat n).
        { f_equal. clear - Hj Hjt Hs Hstarts. induction n as [|n IH]; cbn [repeat app countb].
          - apply countb_zero. intros mm Hin. apply repeat_spec in Hin. subst mm. rewrite Hs. auto.
          - rewrite (proj2 (Hstarts j Hjt) Hj). cbn [is_ninf]. rewrite IH. auto. }
        rewrite Hc1.
        assert (Hend : snd (nth j tmm (NInf, 0)) < nth p (logl r) 0).
        { destruct (Z.eq_dec (snd (nth j tmm (NInf, 0))) (nth p (logl r) 0)) as [Heq|]; [exfalso|lia].
          destruct Hcon as (_ & _ & _ & V2 & _ & _ & _ & _ & _ & V8). rewrite map_length in V8.
          destruct (V8 j Hjt) as [_ VL]. pose proof (last_last _ _ (spec_label j Hjt)) as HL.
          specialize (VL _ HL). rewrite (map_nth_in _ _ _ 0 (NInf, 0)) in VL by auto.
          destruct HL as (L1 & L2 & _). destruct Hp as (G1 & G2 & _).
          rewrite Heq in VL. apply (proj1 (NoDup_nth (logl r) 0) Hnd) in VL; try lia.
          rewrite <- VL in L2. rewrite L2 in G2. lia. }
        assert (Hendk : nth p (logl r) 0 <= snd (nth k tmm (NInf, 0))).
        { rewrite <- P2. pose proof (at_last _ _ _ (spec_ok k Hk)) as HL. unfold spec in HL. cbn [snd] in HL. rewrite <- HL.
          fold (spec k). rewrite last_nth. apply ssorted_le_nth_le; [apply (at_sorted _ _ _ (spec_ok k Hk))|].
          specialize (Hpf k Hk). cbn [fst spec] in *. unfold spec in Hpf. cbn [fst] in Hpf. lia. }
        assert (He1 : zsum (map (fun mm => Z.b2z (snd mm <? nth p (logl r) 0)) (repeat (nth j tmm (NInf, 0)) n)) = Z.of_nat n).
        { clear - Hend. induction n as [|n IH]; auto. cbn [repeat map]. rewrite zsum_cons, IH.
          replace (snd (nth j tmm (NInf, 0)) <? nth p (logl r) 0) with true by (symmetry; apply Z.ltb_lt; auto). cbn [Z.b2z]. lia. }
        assert (He2 : zsum (map (fun mm => Z.b2z (snd mm <? nth p (logl r) 0)) (repeat (nth k tmm (NInf, 0)) m)) = 0).
        { apply zsum_all_zero. intros mm Hin. apply repeat_spec in Hin. subst mm.
          replace (snd (nth k tmm (NInf, 0)) <? nth p (logl r) 0) with false by (symmetry; apply Z.ltb_ge; auto). auto. }
        rewrite He1, He2. lia.
      + apply sorted_rows. rewrite K1. auto.
      + lia.
      + intros j' Hj'. rewrite <- !nth_logl by lia. rewrite K1. fold lg. rewrite I2. auto. }
  destruct Hbad' as [[_ Hl]|(i & I1 & I2)].
  - replace (last nl 0 =? 1) with false by (symmetry; apply Z.eqb_neq; lia).
    rewrite andb_false_r. auto.
  - assert (Hmn : 0 <? min_list nl = false).
    { apply Z.ltb_ge. destruct (min_list_spec nl) as [_ H].
      - intros H. rewrite H in I1. simpl in I1. lia.
      - specialize (H _ (nth_In nl 0 I1)). lia. }
    rewrite Hmn, andb_false_r. auto.
Qed.

(** ** Scripted draws *)
Lemma script_draws : forall sc n l rest, (forall x, In x l -> (x < n)%nat) ->
    draw_seq (script_env sc) n (length l) (l ++ rest) = (l, rest).
Proof.
  intros sc n l rest. induction l as [|x t IH]; intros H; auto. cbn [length draw_seq app].
  change (r_below (script_env sc) n (x :: t ++ rest)) with (Nat.modulo x n, t ++ rest).
  rewrite Nat.mod_small by (apply H; left; auto).
  rewrite IH by (intros; apply H; right; auto). auto.
Qed.
Lemma script_randint : forall sc lo hi l rest ws, (forall x, In x l -> (lo <= x < hi)%nat) ->
    randint lo hi (length l) (@mkW (script_env sc) (map (fun i => i - lo)%nat l ++ rest) ws) =
    (Ok l, @mkW (script_env sc) rest ws).
Proof.
  intros sc lo hi l rest ws H. rewrite randint_draws.
  - cbn [w_rng w_warn]. set (m := map (fun i => (i - lo)%nat) l).
    assert (Hm : length l = length m) by (unfold m; rewrite map_length; auto). rewrite Hm, script_draws.
    + cbn [fst snd]. f_equal. f_equal. unfold m. rewrite map_map. rewrite <- (map_id l) at 2.
      apply map_ext_in. intros x Hx. specialize (H x Hx). lia.
    + intros x Hx. unfold m in Hx. apply in_map_iff in Hx as (y & <- & Hy). specialize (H y Hy). lia.
  - destruct l as [|x t]; auto. left. specialize (H x (or_introl eq_refl)). lia.
Qed.

Theorem boot_ninit_script : forall sc a c, settings r = Some (Some ninit) ->
    length a = ninit -> length c = (length tmm - ninit)%nat ->
    (forall j, In j a -> (j < ninit)%nat) -> (forall k, In k c -> (ninit <= k < length tmm)%nat) ->
    forall e, combine_threads (map (fun i => nth i ths dth) (a ++ c)) false (@mkW (script_env sc) [] []) =
      (Raise e, @mkW (script_env sc) [] []) ->
    bootstrap_resample_run r None true BKeep
      (@mkW (script_env sc) (a ++ map (fun i => i - ninit)%nat c) []) = (Raise e, @mkW (script_env sc) [] []).
Proof.
  intros sc a c Hset La Lc Ha Hc e He.
  rewrite boot_form. unfold wbind at 1, get_state. unfold wbind at 1. cbn [apply_seed wret].
  set (w0 := @mkW (script_env sc) (a ++ map (fun i => (i - ninit)%nat) c) []).
  assert (Hb : boot_body r None true w0 = (Raise e, @mkW (script_env sc) [] [])).
  { unfold boot_body. rewrite (wbind_run _ _ _ _ _ _ _ _ (get_run_threads_spec (script_env sc) r labs tmm _ Hcon)).
    rewrite map_length, seq_length. unfold draw_inds. rewrite Hset.
    destruct Hcon as (_ & Htmm & _). rewrite Htmm.
    assert (Hni : forallb (fun mm => is_ninf (fst mm)) (firstn ninit tmm) = true).
    { apply forallb_forall. intros mm Hmm. apply (In_nth _ _ (NInf, 0)) in Hmm as (q & Q1 & Q2).
      rewrite firstn_length in Q1. rewrite nth_firstn' in Q2 by lia. subst mm.
      rewrite (proj2 (Hstarts q ltac:(lia)) ltac:(lia)). auto. }
    assert (I1 : randint 0 ninit ninit w0 = (Ok a, @mkW (script_env sc) (map (fun i => (i - ninit)%nat) c) [])).
    { replace (randint 0 ninit ninit w0) with (randint 0 ninit (length a) w0) by (rewrite La; auto). unfold w0.
      replace (a ++ map (fun i => (i - ninit)%nat) c)
        with (map (fun i => (i - 0)%nat) a ++ map (fun i => (i - ninit)%nat) c)
        by (f_equal; rewrite <- (map_id a) at 2; apply map_ext; intros; lia).
      apply script_randint. intros x Hx. split; [lia|auto]. }
    assert (J1 : randint ninit (length tmm) (length tmm - ninit) (@mkW (script_env sc) (map (fun i => (i - ninit)%nat) c) []) =
                 (Ok c, @mkW (script_env sc) [] [])).
    { rewrite <- Lc. rewrite <- (app_nil_r (map (fun i => (i - ninit)%nat) c)).
      apply script_randint. auto. }
    assert (Hd : (let* _ := wassert (forallb (fun mm => is_ninf (fst mm)) (firstn ninit tmm)) in
                  let* a0 := randint 0 ninit ninit in
                  if (length tmm <? ninit)%nat then wraise ValueError
                  else let* b0 := randint ninit (length tmm) (length tmm - ninit) in wret (a0 ++ b0))
                   w0 = (Ok (a ++ c), @mkW (script_env sc) [] [])).
    { rewrite (wbind_run _ _ _ _ _ _ _ _ (wassert_true _ _ _ Hni)).
      rewrite (wbind_run _ _ _ _ _ _ _ _ I1).
      replace (length tmm <? ninit)%nat with false by (symmetry; apply Nat.ltb_ge; lia).
      rewrite (wbind_run _ _ _ _ _ _ _ _ J1). auto. }
    rewrite (wbind_run _ _ _ _ _ _ _ _ Hd).
    assert (Hrange : forall i, In i (a ++ c) -> (i < length ths)%nat).
    { unfold ths. rewrite map_length, seq_length. intros i Hi.
      apply in_app_or in Hi as [Hi|Hi]; [specialize (Ha i Hi); lia|apply Hc; auto]. }
    rewrite (wbind_run _ _ _ _ _ _ _ _ (get_threads _ ths (a ++ c) _ dth Hrange)).
    rewrite (wbind_raise _ _ _ _ _ _ _ _ He). auto. }
  rewrite (wbind_raise _ _ _ _ _ _ _ _ Hb). auto.
Qed.

(** The resample succeeds for every draw exactly when every thread from the
    whole prior supports every other thread. *)
Theorem boot_ninit_iff : settings r = Some (Some ninit) -> NoDup (logl r) ->
    (forall j k s f, (j < ninit)%nat -> (k < length tmm)%nat -> fst (nth k tmm (NInf, 0)) = Fin s ->
       first_of labs (Z.of_nat j) f -> nth f (logl r) 0 <> s) ->
    (forall E b (w : world E), accepted_seed b -> exists rr w', bootstrap_resample_run r None true b w = (Ok rr, w')) <->
    (forall j k s, (j < ninit)%nat -> (k < length tmm)%nat -> fst (nth k tmm (NInf, 0)) = Fin s ->
       supports r labs tmm j k s).
Proof.
  intros Hset Hnd Hns. split; [|intros Hsup E b w Hb; apply boot_ninit_ok; auto].
  intros Hall j k s Hj Hk Hs f p Hf Hp.
  assert (Hkn : (ninit <= k)%nat).
  { destruct (Nat.lt_ge_cases k ninit) as [H|]; auto. rewrite (proj2 (Hstarts k Hk) H) in Hs. discriminate. }
  assert (Hno : forall P : Prop, combine_threads (map (fun i => nth i ths dth) (repeat j ninit ++ repeat k (length tmm - ninit)))
                  false (@mkW (script_env []) [] []) = (Raise AssertionError, @mkW (script_env []) [] []) -> P).
  { intros P H. exfalso. apply (boot_ninit_script [] _ _ Hset) in H; try apply repeat_length.
    - destruct (Hall _ BKeep (@mkW (script_env []) (repeat j ninit ++ map (fun i => (i - ninit)%nat) (repeat k (length tmm - ninit))) []) I)
        as (rr & w' & Hr). rewrite H in Hr. discriminate.
    - intros x Hx. apply repeat_spec in Hx. subst x. auto.
    - intros x Hx. apply repeat_spec in Hx. subst x. auto. }
  assert (Hfail := combine_ninit_fails (script_env []) j k s ninit (length tmm - ninit) f p (@mkW (script_env []) [] []) Hnd Hj Hk Hs
                     ltac:(lia) ltac:(lia) Hf Hp (Hns j k s f Hj Hk Hs Hf)).
  split.
  - destruct (Z_lt_le_dec (nth f (logl r) 0) s) as [|Hle]; auto. apply Hno. apply Hfail. left.
    specialize (Hns j k s f Hj Hk Hs Hf). lia.
  - destruct (Z_lt_le_dec (nth p (logl r) 0) (snd (nth j tmm (NInf, 0)))) as [|He]; auto. right.
    set (ok := fun i => (nth i labs 0 =? Z.of_nat j) && (nth i (logl r) 0 <? nth p (logl r) 0) &&
                        (Z.abs (nth i (logl r) 0 - s) <=? nth p (logl r) 0 - s)).
    destruct (existsb ok (seq 0 (length labs))) eqn:Hex.
    + apply existsb_exists in Hex as (i & I1 & I2). apply in_seq in I1. unfold ok in I2.
      apply andb_prop in I2 as [I2 I4]. apply andb_prop in I2 as [I2 I3].
      apply Z.eqb_eq in I2. apply Z.ltb_lt in I3. apply Z.leb_le in I4.
      exists i. split; [lia|auto].
    + apply Hno. apply Hfail. right. split; auto. intros i Hi Hl Hlt.
      destruct (Z_lt_le_dec (nth p (logl r) 0 - s) (Z.abs (nth i (logl r) 0 - s))) as [|Hge]; auto. exfalso.
      assert (Ht : existsb ok (seq 0 (length labs)) = true); [|congruence].
      apply existsb_exists. exists i. split; [apply in_seq; lia|]. unfold ok.
      rewrite (proj2 (Z.eqb_eq _ _) Hl), (proj2 (Z.ltb_lt _ _) Hlt), (proj2 (Z.leb_le _ _) Hge). auto.
Qed.
End Ninit.
