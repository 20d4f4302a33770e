(** Dummy threads, dummy runs and dynamic dummy runs. *)
From Verif Require Import Base ModelRun ModelData ModelDummy Spec SpecRun
  ProofBase ProofMonad ProofBirth ProofRun ProofProcess ProofDead ProofDict ProofComb ProofRuns ProofJoin ProofLow ProofDummy.

Lemma np_sort_perm : forall E l, Permutation (np_sort E l) l.
Proof. intros. apply take_perm, argsort_perm. Qed.
Lemma np_sort_sorted : forall E l, StronglySorted Z.le (np_sort E l).
Proof. intros. apply argsort_sorted. Qed.

(** A thread of [n] samples starting at [start]; its samples may only touch the start. *)
Definition drawn (n : nat) (start : ext) (th : run) : Prop :=
  length (logl th) = n /\ length (theta th) = n /\ nlive_array th = repeat 1 n /\
  thread_labels th = Some (repeat 0 n) /\ thread_min_max th = Some [(start, last (logl th) 0)] /\
  output th = None /\ settings th = None /\ StronglySorted Z.le (logl th) /\
  forall x, In x (logl th) -> match start with Fin z => z <= x | NInf => 0 <= x end.

Lemma sorted_shift : forall z l, StronglySorted Z.le l -> StronglySorted Z.le (map (Z.add z) l).
Proof.
  induction 1; cbn; constructor; auto. rewrite Forall_forall in *. intros x Hx.
  apply in_map_iff in Hx as (y & <- & Hy). specialize (H0 _ Hy). lia.
Qed.

Theorem dummy_thread_spec : forall E (U : uniform_draws E) n sd start (w : world E), (1 <= n)%nat ->
    (forall z, sd = Some z -> 0 <= z < 4294967296) ->
    exists th s', get_dummy_thread U n sd start w = (Ok th, mkW s' (w_warn w)) /\ drawn n start th.
Proof.
  intros E U n sd start w Hn Hz. unfold get_dummy_thread.
  assert (Hsd : exists s, maybe_seed sd w = (Ok tt, @mkW E s (w_warn w))).
  { destruct sd as [z|]; [exists (r_seed E z); apply seed_run; auto|exists (w_rng w); destruct w; reflexivity]. }
  destruct Hsd as [s Hsd]. rewrite (wbind_run _ _ _ _ _ _ _ _ Hsd).
  unfold draw, wbind. cbn [w_rng w_warn].
  pose proof (u_logl_length E U n s) as L1. pose proof (u_logl_pos E U n s) as L2.
  destruct (u_logl U n s) as [ls s1]. cbn [fst] in *. cbn [w_rng w_warn].
  pose proof (u_theta_length E U n s1) as L3. destruct (u_theta U n s1) as [ths s2]. cbn [fst] in *. cbn [w_rng w_warn].
  set (lg := match start with NInf => np_sort E ls | Fin z => map (Z.add z) (np_sort E ls) end).
  assert (Hlen : length lg = n).
  { unfold lg. destruct start; rewrite ?map_length, (Permutation_length (np_sort_perm E ls)); auto. }
  assert (Hne : lg <> []) by (intros He; rewrite He in Hlen; simpl in Hlen; lia).
  assert (Hr : forall A (x y : A), (match lg with [] => x | _ => y end) = y) by (destruct lg; congruence).
  rewrite (Hr (W E run)). exists (mkRun lg ths (repeat 1 n) (Some (repeat 0 n)) (Some [(start, last lg 0)]) None None), s2.
  split; [reflexivity|]. unfold drawn. cbn. repeat (split; [solve [auto]|]). split.
  - unfold lg. destruct start; [|apply sorted_shift]; apply np_sort_sorted.
  - intros x Hx. unfold lg in Hx. destruct start as [|z].
    { apply L2. apply (Permutation_in _ (np_sort_perm E ls)); auto. }
    apply in_map_iff in Hx as (y & <- & Hy). apply (Permutation_in _ (np_sort_perm E ls)) in Hy.
    specialize (L2 y Hy). lia.
Qed.

Lemma dummy_threads_spec : forall E (U : uniform_draws E) n (starts : list ext) (w : world E), (1 <= n)%nat ->
    exists ths s', wmapM (fun st => get_dummy_thread U n None st) starts w = (Ok ths, mkW s' (w_warn w)) /\
      Forall2 (drawn n) starts ths.
Proof.
  intros E U n starts. induction starts as [|st t IH]; intros w Hn.
  - exists [], (w_rng w). destruct w. split; [auto|constructor].
  - destruct (dummy_thread_spec E U n None st w Hn ltac:(discriminate)) as (th & s1 & H1 & H2).
    destruct (IH (mkW s1 (w_warn w)) Hn) as (ths & s2 & H3 & H4).
    exists (th :: ths), s2. split; [|constructor; auto].
    cbn [wmapM]. rewrite (wbind_run _ _ _ _ _ _ _ _ H1), (wbind_run _ _ _ _ _ _ _ _ H3). auto.
Qed.

(** ** Relabelling *)
Definition relabel (n i : nat) (th : run) : run :=
  mkRun (logl th) (theta th) (nlive_array th) (Some (repeat (Z.of_nat i) n)) (thread_min_max th) (output th) (settings th).
Definition good (n : nat) (th : run) : Prop := exists lab mm, a_thread th lab mm /\ length (logl th) = n.
Definition mm_of (th : run) : ext * Z := hd (NInf, 0) (get_tmm th).
Definition specs_from (n k : nat) (ths : list run) : tspecs :=
  map (fun '(i, th) => (relabel n i th, (Z.of_nat i, mm_of th))) (combine (seq k (length ths)) ths).

Lemma good_relabel : forall n i th, good n th -> a_thread (relabel n i th) (Z.of_nat i) (mm_of th).
Proof.
  intros n i th (lab & mm & H & Hl). pose proof (at_tmm _ _ _ H) as Ht.
  assert (Hm : mm_of th = mm) by (unfold mm_of, get_tmm; rewrite Ht; auto). rewrite Hm.
  constructor; cbn; try apply H. rewrite Hl. auto.
Qed.

Lemma specs_from_facts : forall n ths k, (forall th, In th ths -> good n th) ->
    let l := specs_from n k ths in
    map fst l = map (fun '(i, th) => relabel n i th) (combine (seq k (length ths)) ths) /\
    length l = length ths /\ (forall x, In x l -> ts_ok x) /\
    (forall j, (j < length ths)%nat -> fst (snd (nth j l ts0)) = Z.of_nat (k + j)) /\
    ts_tmm l = map mm_of ths /\ map r_logl (ts_rows l) = flat_map logl ths /\
    map r_theta (ts_rows l) = flat_map theta ths.
Proof.
  intros n. induction ths as [|th t IH]; intros k Hg l.
  - unfold l, specs_from. cbn. repeat split; auto; intros; try lia; contradiction.
  - assert (Hth := Hg th (or_introl eq_refl)). pose proof (good_relabel n k th Hth) as Ha.
    destruct (IH (S k)) as (I1 & I2 & I3 & I4 & I5 & I6 & I7); [intros; apply Hg; right; auto|].
    change l with ((relabel n k th, (Z.of_nat k, mm_of th)) :: specs_from n (S k) t).
    destruct (thread_rows_cols _ _ _ Ha) as (R1 & _ & _ & R4 & _). cbn [fst snd] in *.
    split; [|split; [|split; [|split; [|split; [|split]]]]].
    + cbn [map length seq combine fst]. f_equal. apply I1.
    + cbn [length]. rewrite I2. auto.
    + intros x [<-|Hx]; [exact Ha|apply I3; auto].
    + intros [|j] Hj; cbn [nth fst snd]; [f_equal; lia|]. cbn [length] in Hj. rewrite I4 by lia. f_equal. lia.
    + unfold ts_tmm in *. cbn [map fst snd]. rewrite I5. auto.
    + unfold ts_rows in *. cbn [flat_map fst snd]. rewrite map_app, I6, R1. auto.
    + unfold ts_rows in *. cbn [flat_map fst snd]. rewrite map_app, I7, R4. auto.
Qed.

Theorem join_labelled : forall E n ths abp (w : world E), ths <> [] -> (forall th, In th ths -> good n th) ->
    NoDup (flat_map logl ths) ->
    (forall m e, In (Fin m, e) (map mm_of ths) -> In m (flat_map logl ths)) ->
    let c := starts_on (map mm_of ths) (min_list (flat_map logl ths)) in
    (c = 1%nat -> combine_threads (set_labels n ths) abp w = (Raise AssertionError, w)) /\
    (c <> 1%nat -> exists r labs,
       combine_threads (set_labels n ths) abp w =
         (Ok r, if (c =? 0)%nat then w else mkW (w_rng w) (WDupStarts :: w_warn w)) /\
       sound_run r labs (map mm_of ths) /\ settings r = None /\ output r = None /\
       (c = 0%nat -> complete_run r labs (map mm_of ths)) /\
       Permutation (combine (logl r) (theta r)) (combine (flat_map logl ths) (flat_map theta ths)) /\
       (forall k, (k < length ths)%nat -> length (filter (Z.eqb (Z.of_nat k)) labs) = n)).
Proof.
  intros E n ths abp w Hne Hg Hnd Hst c.
  destruct (specs_from_facts n ths 0 Hg) as (F1 & F2 & F3 & F4 & F5 & F6 & F7).
  set (l := specs_from n 0 ths) in *.
  assert (Hset : set_labels n ths = map fst l) by (rewrite F1; reflexivity).
  rewrite Hset. rewrite <- F6 in Hnd. rewrite <- F5, <- F6 in Hst.
  assert (Hln : l <> []) by (intros He; rewrite He in F2; destruct ths; simpl in F2; congruence || lia).
  destruct (fresh_join E l abp w Hln F3 ltac:(intros k Hk; rewrite F4 by lia; auto) Hnd Hst) as [J1 J2].
  rewrite F5, F6 in J1, J2. fold c in J1, J2. split; [exact J1|]. intros Hc.
  destruct (J2 Hc) as (r & labs & K1 & K2 & K3 & K4 & K5 & K6).
  exists r, labs. split; [exact K1|]. split; [auto|]. split; [auto|]. split; [auto|]. split; [auto|].
  assert (Hcon : consistent r labs (map mm_of ths)) by apply K2.
  destruct Hcon as (_ & _ & V1 & V2 & V3 & V4 & _).
  split.
  - apply (Permutation_map (fun k : Z * (Z * list Z) => (fst k, snd (snd k)))) in K6. rewrite map_map in K6. cbn [key fst snd] in K6.
    rewrite pair_cols in K6. rewrite F6, F7 in K6. rewrite <- K6.
    replace (map (fun k : Z * (Z * list Z) => (fst k, snd (snd k))) (combine (logl r) (combine labs (theta r))))
      with (combine (logl r) (theta r)); [auto|].
    clear - V2 V3. revert labs V2 V3. generalize (theta r). induction (logl r) as [|x t IH]; intros th labs V2 V3; auto.
    destruct labs, th; simpl in *; try lia; auto. f_equal. apply IH; lia.
  - intros k Hk. apply (Permutation_map (fun k : Z * (Z * list Z) => fst (snd k))) in K6. rewrite map_map in K6. cbn [key fst snd] in K6.
    assert (Hlab : Permutation labs (map r_lab (ts_rows l))).
    { rewrite <- K6. replace (map (fun k : Z * (Z * list Z) => fst (snd k)) (combine (logl r) (combine labs (theta r)))) with labs; auto.
      clear - V2 V3. revert labs V2 V3. generalize (theta r). induction (logl r) as [|x t IH]; intros th labs V2 V3.
      - destruct labs; simpl in *; congruence || lia || auto.
      - destruct labs, th; simpl in *; try lia; auto. f_equal. apply IH; lia. }
    rewrite (filter_length_perm _ (Z.eqb (Z.of_nat k)) _ _ Hlab).
    clear - Hk Hg. unfold l. clear l.
    assert (Hgen : forall ths k0 k, (forall th, In th ths -> good n th) ->
        length (filter (Z.eqb (Z.of_nat k)) (map r_lab (ts_rows (specs_from n k0 ths)))) =
        if ((k0 <=? k) && (k <? k0 + length ths))%nat then n else 0%nat).
    { clear. induction ths as [|th t IH]; intros k0 k Hg.
      - transitivity 0%nat; [reflexivity|]. cbn [length]. destruct (Nat.leb_spec k0 k), (Nat.ltb_spec k (k0 + 0)); simpl; auto; lia.
      - change (specs_from n k0 (th :: t)) with ((relabel n k0 th, (Z.of_nat k0, mm_of th)) :: specs_from n (S k0) t).
        unfold ts_rows. cbn [flat_map fst snd]. fold (ts_rows (specs_from n (S k0) t)).
        rewrite map_app, filter_app, app_length, IH by (intros; apply Hg; right; auto).
        pose proof (Hg th (or_introl eq_refl)) as Hth. pose proof (good_relabel n k0 th Hth) as Ha.
        destruct (thread_rows_cols _ _ _ Ha) as (_ & R2 & _). rewrite R2.
        destruct Hth as (_ & _ & _ & Hlen). cbn [relabel logl]. rewrite Hlen.
        destruct (Nat.eq_dec k k0) as [->|Hk].
        + replace (length (filter (Z.eqb (Z.of_nat k0)) (repeat (Z.of_nat k0) n))) with n.
          2: { clear. induction n; auto. cbn [repeat filter]. rewrite Z.eqb_refl. cbn [length]. auto. }
          cbn [length]. destruct (Nat.leb_spec (S k0) k0), (Nat.leb_spec k0 k0), (Nat.ltb_spec k0 (k0 + S (length t))); simpl; lia.
        + replace (length (filter (Z.eqb (Z.of_nat k)) (repeat (Z.of_nat k0) n))) with 0%nat.
          2: { clear - Hk. induction n; auto. cbn [repeat filter].
               destruct (Z.eqb_spec (Z.of_nat k) (Z.of_nat k0)); [lia|auto]. }
          cbn [length]. destruct (Nat.leb_spec (S k0) k), (Nat.leb_spec k0 k), (Nat.ltb_spec k (S k0 + length t)), (Nat.ltb_spec k (k0 + S (length t))); simpl; lia. }
    rewrite Hgen by auto. destruct (Nat.leb_spec 0 k), (Nat.ltb_spec k (0 + length ths)); simpl; auto; lia.
Qed.

(** ** Processing a dead-birth array again *)
From Verif Require Import ProofMulti.

Lemma sort_samps_id : forall E s, StronglySorted Z.le (map s_logl s) -> NoDup (map s_logl s) -> sort_samps E s = s.
Proof.
  intros E s Hs Hn. apply (ssorted_perm_eq _ (fun x y => s_logl x <= s_logl y)).
  - intros x y Hx Hy Hxy Hyx. assert (He : s_logl x = s_logl y) by lia.
    apply (Permutation_in _ (sort_samps_perm E s)) in Hx, Hy. clear - Hn Hx Hy He.
    induction s as [|q s IH]; [destruct Hx|]. cbn in Hn. apply NoDup_cons_iff in Hn as [H2 Hn].
    destruct Hx as [->|Hx], Hy as [->|Hy]; auto.
    + exfalso. apply H2. rewrite He. apply in_map. auto.
    + exfalso. apply H2. rewrite <- He. apply in_map. auto.
  - apply (proj1 (ssorted_map _ _ s_logl Z.le _)), sort_samps_sorted.
  - apply (proj1 (ssorted_map _ _ s_logl Z.le _)); auto.
  - apply sort_samps_perm.
Qed.

Theorem reprocess : forall E r labs tmm init da dw (w : world E),
    sound_run r labs tmm -> settings r = None -> (forall x, In x (logl r) -> init < x) ->
    exists r' labs' tmm' w',
      (let* samples := run_dead_birth_array r init da dw in process_samples_array samples da dw) w = (Ok r', w') /\
      w_rng w' = w_rng w /\ logl r' = logl r /\ theta r' = theta r /\ complete_run r' labs' tmm' /\
      output r' = None /\ settings r' = None /\
      nlive_array r' = map (fun x => Z.of_nat (live_at tmm x)) (logl r).
Proof.
  intros E r labs tmm init da dw w Hr Hset Hi.
  destruct (dead_birth_sound E r labs tmm init da dw w Hr Hset Hi) as (out & D1 & D2 & D3 & D4 & D5 & D6).
  destruct (process_spec E init out da dw w D2 (fun _ => D3)) as (r' & w' & P1 & P2 & P3).
  destruct (processed_complete E init out r' D2 D3 P3) as (labs' & tmm' & C1 & C2 & C3 & _).
  assert (Hs : StronglySorted Z.le (map s_logl out)).
  { rewrite D4. destruct Hr as ((_ & _ & _ & _ & _ & V & _) & _). auto. }
  pose proof P3 as (Q1 & Q2 & _). rewrite (sort_samps_id E out Hs D3) in Q1, Q2. rewrite D4 in Q1. rewrite D5 in Q2.
  exists r', labs', tmm', w'. rewrite (wbind_run _ _ _ _ _ _ _ _ D1).
  split; [auto|]. split; [auto|]. split; [auto|]. split; [auto|]. split; [auto|]. split; [auto|]. split; [auto|].
  destruct (nlive_distinct E init out r' D2 D3 P3) as (N1 & N2 & N3).
  apply nth_ext' with (d := 0).
  - rewrite map_length, N1. rewrite <- D4, map_length. auto.
  - intros i Hk. rewrite N1 in Hk. rewrite N3 by auto. rewrite Q1.
    assert (Hl : (i < length (logl r))%nat) by (rewrite <- D4, map_length; auto).
    rewrite (map_nth_in _ _ _ 0 0) by auto. f_equal. apply D6. apply Hi, nth_In. auto.
Qed.

(** ** Dummy runs *)
Lemma drawn_good : forall n th start, (1 <= n)%nat -> drawn n start th ->
    (forall z, start = Fin z -> ~ In z (logl th)) -> good n th /\ mm_of th = (start, last (logl th) 0).
Proof.
  intros n th start Hn (D1 & D2 & D3 & D4 & D5 & D6 & D7 & D8 & D9) Hz.
  assert (Hne : logl th <> []) by (intros He; rewrite He in D1; simpl in D1; lia).
  split; [|unfold mm_of, get_tmm; rewrite D5; auto].
  exists 0, (start, last (logl th) 0). split; auto.
  constructor; cbn [fst snd]; rewrite ?D1; auto.
  destruct start as [|z]; auto. cbn. apply Z.ltb_lt.
  destruct (logl th) as [|x t]; [congruence|]. cbn [nth].
  specialize (D9 x (or_introl eq_refl)). assert (z <> x); [|lia]. intros ->. apply (Hz x eq_refl). left; auto.
Qed.

Lemma Forall2_len' : forall A B (R : A -> B -> Prop) l m, Forall2 R l m -> length l = length m.
Proof. induction 1; simpl; auto. Qed.
Lemma Forall2_in_r : forall A B (R : A -> B -> Prop) l m y, Forall2 R l m -> In y m -> exists x, In x l /\ R x y.
Proof. induction 1; intros Hy; [destruct Hy|]. destruct Hy as [<-|Hy]; [exists x; split; [left|]; auto|].
  destruct (IHForall2 Hy) as (x' & ? & ?). exists x'. split; [right|]; auto. Qed.

Lemma flat_map_perm : forall A B (f : A -> list B) l m, Permutation l m -> Permutation (flat_map f l) (flat_map f m).
Proof.
  induction 1; cbn; auto.
  - apply Permutation_app_head; auto.
  - rewrite !app_assoc. apply Permutation_app_tail, Permutation_app_comm.
  - etransitivity; eauto.
Qed.
Lemma starts_on_ninf : forall tmm x, (forall mm, In mm tmm -> fst mm = NInf) -> starts_on tmm x = 0%nat.
Proof.
  intros tmm x H. unfold starts_on. induction tmm as [|mm t IH]; auto. cbn [filter].
  rewrite (H mm (or_introl eq_refl)). apply IH. intros; apply H; right; auto.
Qed.
Lemma combine_flat : forall ths, (forall th, In th ths -> length (theta th) = length (logl th)) ->
    combine (flat_map logl ths) (flat_map theta ths) = flat_map (fun th => combine (logl th) (theta th)) ths.
Proof.
  induction ths as [|th t IH]; intros H; auto. cbn [flat_map]. rewrite <- IH by (intros; apply H; right; auto).
  specialize (H th (or_introl eq_refl)). revert H. generalize (theta th).
  induction (logl th) as [|x u IHu]; intros [|y v] Hl; cbn in *; try lia; auto. f_equal. apply IHu. lia.
Qed.

Theorem dummy_run_spec : forall E (U : uniform_draws E) nthread n sd (w : world E) ths w1,
    (1 <= nthread)%nat -> (1 <= n)%nat ->
    (let* _ := maybe_seed sd in wmapM (fun _ => get_dummy_thread U n None NInf) (seq 0 nthread)) w = (Ok ths, w1) ->
    NoDup (flat_map logl ths) ->
    exists r labs tmm, get_dummy_run U nthread n sd NInf w = (Ok r, w1) /\
      complete_run r labs tmm /\ settings r = None /\ output r = None /\ length tmm = nthread /\
      (forall mm, In mm tmm -> fst mm = NInf) /\
      (forall k, (k < nthread)%nat -> length (filter (Z.eqb (Z.of_nat k)) labs) = n) /\
      Permutation (combine (logl r) (theta r)) (flat_map (fun th => combine (logl th) (theta th)) ths).
Proof.
  intros E U nthread n sd w ths w1 Ht Hn H Hnd.
  assert (Hd : length ths = nthread /\ forall th, In th ths -> drawn n NInf th).
  { apply wbind_Ok in H as (u & w0 & H0 & H).
    destruct (dummy_threads_spec E U n (repeat NInf nthread) w0 Hn) as (ths' & s' & M1 & M2).
    assert (He : wmapM (fun st => get_dummy_thread U n None st) (repeat NInf nthread) w0 =
                 wmapM (fun _ : nat => get_dummy_thread U n None NInf) (seq 0 nthread) w0).
    { clear. revert w0. generalize 0%nat. induction nthread as [|k IH]; intros a w0; auto.
      cbn [repeat seq wmapM]. unfold wbind. destruct (get_dummy_thread U n None NInf w0) as [[th|e] w']; auto.
      rewrite (IH (S a)). auto. }
    rewrite He, H in M1. injection M1 as -> _. split.
    - rewrite <- (Forall2_len' _ _ _ _ _ M2), repeat_length. auto.
    - intros th Hth. destruct (Forall2_in_r _ _ _ _ _ _ M2 Hth) as (x & X1 & X2).
      apply repeat_spec in X1. subst. auto. }
  destruct Hd as [Hlen Hd].
  set (key := map (fun th => nth 0 (logl th) 0) ths).
  set (ths' := take run0 ths (argsort E key)).
  assert (Hp : Permutation ths' ths).
  { apply take_perm. rewrite (argsort_perm E key). unfold key. rewrite map_length. auto. }
  assert (Hd' : forall th, In th ths' -> drawn n NInf th) by (intros th Hth; apply Hd; eapply Permutation_in; eauto).
  assert (Hg : forall th, In th ths' -> good n th /\ mm_of th = (NInf, last (logl th) 0)).
  { intros th Hth. apply drawn_good; auto. intros; discriminate. }
  assert (Hnf : forall mm, In mm (map mm_of ths') -> fst mm = NInf).
  { intros mm Hmm. apply in_map_iff in Hmm as (th & <- & Hth). destruct (Hg th Hth) as [_ ->]. auto. }
  assert (Hlen' : length ths' = nthread) by (rewrite (Permutation_length Hp); auto).
  destruct (join_labelled E n ths' false w1) as [_ J].
  { intros He. rewrite He in Hlen'. simpl in Hlen'. lia. }
  { intros th Hth. apply Hg; auto. }
  { eapply Permutation_NoDup; [apply flat_map_perm; symmetry; exact Hp|auto]. }
  { intros m e Hin. specialize (Hnf _ Hin). discriminate. }
  rewrite starts_on_ninf in J by auto.
  destruct (J ltac:(lia)) as (r & labs & K1 & K2 & K3 & K4 & K5 & K6 & K7).
  exists r, labs, (map mm_of ths'). split.
  - unfold get_dummy_run. apply wbind_Ok in H as (u & w0 & H0 & H).
    rewrite (wbind_run _ _ _ _ _ _ _ _ H0), (wbind_run _ _ _ _ _ _ _ _ H). exact K1.
  - split; [apply K5; auto|]. split; [auto|]. split; [auto|]. split; [rewrite map_length; auto|].
    split; [auto|]. split; [intros k Hk; apply K7; lia|].
    rewrite K6, combine_flat.
    + apply flat_map_perm; auto.
    + intros th Hth. destruct (Hd' th Hth) as (D1 & D2 & _). lia.
Qed.

Lemma dummy_run_facts : forall E (U : uniform_draws E) nthread n sd (w : world E) r w1,
    (1 <= nthread)%nat -> (1 <= n)%nat ->
    get_dummy_run U nthread n sd NInf w = (Ok r, w1) -> NoDup (logl r) ->
    exists labs tmm, complete_run r labs tmm /\ settings r = None /\ output r = None /\ length tmm = nthread /\
      (forall mm, In mm tmm -> fst mm = NInf) /\
      (forall k, (k < nthread)%nat -> length (filter (Z.eqb (Z.of_nat k)) labs) = n) /\
      (forall x, In x (logl r) -> 0 <= x) /\ w_warn w1 = w_warn w.
Proof.
  intros E U nthread n sd w r w1 Ht Hn H Hnd.
  assert (Hz : forall z, sd = Some z -> 0 <= z < 4294967296).
  { intros z ->. unfold get_dummy_run in H. apply wbind_Ok in H as (u & w0 & H & _). cbn [maybe_seed] in H.
    unfold seed in H. destruct (good_seed z) eqn:Hg; [apply good_seed_iff; auto|discriminate]. }
  assert (Hex : exists ths w2, (let* _ := maybe_seed sd in wmapM (fun _ => get_dummy_thread U n None NInf) (seq 0 nthread)) w = (Ok ths, w2) /\
     w_warn w2 = w_warn w /\ forall th, In th ths -> drawn n NInf th).
  { assert (Hsd : exists s, maybe_seed sd w = (Ok tt, @mkW E s (w_warn w))).
    { destruct sd as [z|]; [exists (r_seed E z); apply seed_run; auto|exists (w_rng w); destruct w; reflexivity]. }
    destruct Hsd as [s Hsd].
    destruct (dummy_threads_spec E U n (repeat NInf nthread) (mkW s (w_warn w)) Hn) as (ths & s' & M1 & M2).
    exists ths, (mkW s' (w_warn w)). rewrite (wbind_run _ _ _ _ _ _ _ _ Hsd). split; [|split; [auto|]].
    - etransitivity; [|exact M1]. clear. generalize (mkW s (w_warn w)). generalize 0%nat.
      induction nthread as [|k IH]; intros a w0; auto.
      cbn [repeat seq wmapM]. unfold wbind. destruct (get_dummy_thread U n None NInf w0) as [[th|e] w']; auto.
      rewrite (IH (S a)). auto.
    - intros th Hth. destruct (Forall2_in_r _ _ _ _ _ _ M2 Hth) as (x & X1 & X2).
      apply repeat_spec in X1. subst. auto. }
  destruct Hex as (ths & w2 & H2 & Hw & Hd).
  assert (Hp : Permutation (logl r) (flat_map logl ths)).
  { pose proof H as H'. unfold get_dummy_run in H'. apply wbind_Ok in H2 as (u & w0 & S1 & S2).
    rewrite (wbind_run _ _ _ _ _ _ _ _ S1), (wbind_run _ _ _ _ _ _ _ _ S2) in H'.
    apply combine_threads_samples in H' as (C1 & _ & C3 & _).
    apply (Permutation_map fst) in C1. rewrite combine_fst in C1 by auto. rewrite C1.
    set (ths' := take run0 ths _).
    assert (Hpp : Permutation ths' ths).
    { apply take_perm. rewrite (argsort_perm E _), map_length. auto. }
    transitivity (flat_map logl ths'); [|apply flat_map_perm; auto].
    assert (Hl : forall th, In th ths' -> length (theta th) = length (logl th)).
    { intros th Hth. apply (Permutation_in _ Hpp) in Hth. destruct (Hd th Hth) as (D1 & D2 & _). lia. }
    clear - Hl. unfold set_labels. generalize 0%nat. induction ths' as [|th t IH]; intros a; auto.
    cbn [length seq combine map flat_map logl theta]. rewrite map_app, combine_fst by (symmetry; apply Hl; left; auto).
    apply Permutation_app_head, IH. intros; apply Hl; right; auto. }
  destruct (dummy_run_spec E U nthread n sd w ths w2 Ht Hn H2) as (r' & labs & tmm & R1 & R2 & R3 & R4 & R5 & R6 & R7 & R8).
  { eapply Permutation_NoDup; eauto. }
  rewrite H in R1. injection R1 as <- <-. exists labs, tmm.
  repeat (split; [solve [auto]|]). split; [|auto].
  intros x Hx. apply (Permutation_in _ Hp) in Hx. apply in_flat_map in Hx as (th & Hth & Hx).
  destruct (Hd th Hth) as (_ & _ & _ & _ & _ & _ & _ & _ & D9). apply D9; auto.
Qed.

Lemma min_list_eq : forall l x, In x l -> (forall y, In y l -> x <= y) -> min_list l = x.
Proof.
  intros l x Hx Hm. assert (Hne : l <> []) by (intros ->; destruct Hx).
  destruct (min_list_spec l Hne) as [A1 A2]. specialize (A2 x Hx). specialize (Hm _ A1). lia.
Qed.

Theorem dynamic_spec : forall E (U : uniform_draws E) n ninit ndyn sd logl_init (w : world E) init w1 starts w2 dyn w3 x0,
    (1 <= n)%nat -> (1 <= ninit)%nat -> logl_init < 0 ->
    get_dummy_run U ninit n sd NInf w = (Ok init, w1) ->
    choice_n (logl init) ndyn w1 = (Ok starts, w2) ->
    wmapM (fun s => get_dummy_thread U n None (Fin s)) starts w2 = (Ok dyn, w3) ->
    NoDup (logl init ++ flat_map logl dyn) ->
    In x0 (logl init) -> (forall x, In x (logl init) -> x0 <= x) ->
    let c := length (filter (Z.eqb x0) starts) in
    (c = 1%nat -> get_dummy_dynamic_run U n ninit ndyn sd logl_init w = (Raise AssertionError, w3)) /\
    (c <> 1%nat -> exists r labs tmm w',
       get_dummy_dynamic_run U n ninit ndyn sd logl_init w = (Ok r, w') /\ w_rng w' = w_rng w3 /\
       complete_run r labs tmm /\ settings r = None /\ output r = None /\
       Permutation (logl r) (logl init ++ flat_map logl dyn) /\
       (forall i, (i < length (logl r))%nat -> nth i (nlive_array r) 0 =
          Z.of_nat (length (filter (fun mm => starts_below (fst mm) (nth i (logl r) 0) && (nth i (logl r) 0 <=? snd mm))
                     (get_tmm init ++ combine (map Fin starts) (map (fun th => last (logl th) 0) dyn)))))).
Proof.
  intros E U n ninit ndyn sd logl_init w init w1 starts w2 dyn w3 x0 Hn Hi Hli H1 H2 H3 Hnd Hx0 Hmin c.
  assert (Hni : NoDup (logl init)) by (eapply NoDup_app_l; eauto).
  destruct (dummy_run_facts E U ninit n sd w init w1 Hi Hn H1 Hni) as (labs & tmm & F1 & F2 & F3 & F4 & F5 & F6 & F7 & F8).
  assert (Hne : logl init <> []) by (intros He; rewrite He in Hx0; destruct Hx0).
  assert (Hst : forall x, In x starts -> In x (logl init)).
  { destruct (choice_n_ok E _ (logl init) ndyn w1 Hne) as (xs & w' & C1 & C2 & C3 & C4).
    rewrite H2 in C1. injection C1 as -> _. auto. }
  assert (Hdr : Forall2 (drawn n) (map Fin starts) dyn).
  { destruct (dummy_threads_spec E U n (map Fin starts) w2 Hn) as (ths & s & M1 & M2).
    assert (He : wmapM (fun s => get_dummy_thread U n None (Fin s)) starts w2 =
                 wmapM (fun st => get_dummy_thread U n None st) (map Fin starts) w2).
    { clear. revert w2. induction starts as [|x t IH]; intros w2; auto. cbn [map wmapM]. unfold wbind.
      destruct (get_dummy_thread U n None (Fin x) w2) as [[a|e] w']; auto. rewrite IH. auto. }
    rewrite He, M1 in H3. injection H3 as -> _. auto. }
  assert (Hcon : consistent init labs tmm) by apply F1.
  pose proof (complete_sound _ _ _ F1) as Hso.
  destruct (sound_threads init labs tmm Hso) as (Tok & Ttm & Tne & Tkey & Tlg & _ & _).
  set (l := run_threads init labs tmm) in *.
  assert (Hth : get_run_threads init w2 = (Ok (map fst l), w2)).
  { rewrite (get_run_threads_spec E init labs tmm w2 Hcon). unfold l, run_threads. rewrite map_map. auto. }
  assert (Hgl : forall th, In th (map fst l) -> good n th).
  { intros th Hin. apply in_map_iff in Hin as (x & <- & Hx). pose proof (Tok x Hx) as Ha.
    exists (fst (snd x)), (snd (snd x)). split; [exact Ha|].
    unfold l, run_threads in Hx. apply in_map_iff in Hx as (k & <- & Hk). apply in_seq in Hk.
    cbn [fst snd nth_thread logl]. rewrite take_length. unfold thread_inds. rewrite where_length, countb_filter. apply F6. lia. }
  assert (Hmm : map mm_of (map fst l) = tmm).
  { rewrite <- Ttm. unfold ts_tmm. rewrite map_map. apply map_ext_in. intros x Hx.
    unfold mm_of, get_tmm. rewrite (at_tmm _ _ _ (Tok x Hx)). auto. }
  assert (Hfl : flat_map logl (map fst l) = map r_logl (ts_rows l)).
  { clear - Tok. induction l as [|x t IH]; auto. cbn [map flat_map]. unfold ts_rows. cbn [flat_map].
    rewrite map_app. rewrite IH by (intros; apply Tok; right; auto).
    destruct (thread_rows_cols _ _ _ (Tok x (or_introl eq_refl))) as (R1 & _). rewrite R1. auto. }
  assert (Hgd : forall i, (i < length dyn)%nat -> good n (nth i dyn run0) /\
             mm_of (nth i dyn run0) = (Fin (nth i starts 0), last (logl (nth i dyn run0)) 0)).
  { intros i Hid. assert (Hls : length dyn = length starts) by (rewrite <- (Forall2_len' _ _ _ _ _ Hdr), map_length; auto).
    assert (Hdi : drawn n (Fin (nth i starts 0)) (nth i dyn run0)).
    { clear - Hdr Hid. revert i Hid. remember (map Fin starts) as fs. revert starts Heqfs.
      induction Hdr; intros starts He i Hid; [simpl in Hid; lia|].
      destruct starts as [|s t]; [discriminate|]. injection He as -> ->. destruct i; cbn; auto.
      apply IHHdr; auto. simpl in Hid. lia. }
    apply drawn_good; auto. intros z Hz. injection Hz as <-. intros Hin.
    assert (Hin' : In (nth i starts 0) (flat_map logl dyn)).
    { apply in_flat_map. exists (nth i dyn run0). split; auto. apply nth_In; auto. }
    assert (Hin2 : In (nth i starts 0) (logl init)) by (apply Hst, nth_In; lia).
    clear - Hnd Hin' Hin2. induction (logl init) as [|y t IH]; [destruct Hin2|].
    cbn in Hnd. apply NoDup_cons_iff in Hnd as [N1 N2]. destruct Hin2 as [->|Hin2]; auto.
    apply N1, in_or_app. auto. }
  assert (Hls : length dyn = length starts) by (rewrite <- (Forall2_len' _ _ _ _ _ Hdr), map_length; auto).
  set (ends := combine (map Fin starts) (map (fun th => last (logl th) 0) dyn)).
  assert (Hmd : map mm_of dyn = ends).
  { assert (Hle : length ends = length dyn) by (unfold ends; rewrite combine_length, !map_length; lia).
    apply nth_ext' with (d := (NInf, 0)); [rewrite map_length; lia|].
    intros i Hid. rewrite map_length in Hid. rewrite (map_nth_in _ _ _ (NInf, 0) run0) by auto.
    destruct (Hgd i Hid) as [_ ->]. unfold ends. rewrite combine_nth by (rewrite !map_length; lia).
    rewrite (map_nth_in _ _ _ NInf 0) by lia. rewrite (map_nth_in _ _ _ 0 run0) by auto. auto. }
  set (ths := map fst l ++ dyn).
  assert (Hmt : map mm_of ths = tmm ++ ends) by (unfold ths; rewrite map_app, Hmm, Hmd; auto).
  assert (Hft : Permutation (flat_map logl ths) (logl init ++ flat_map logl dyn)).
  { unfold ths. rewrite flat_map_app, Hfl. apply Permutation_app_tail; auto. }
  assert (Hge : forall x, In x (flat_map logl ths) -> x0 <= x).
  { intros x Hx. apply (Permutation_in _ Hft), in_app_or in Hx as [Hx|Hx]; auto.
    apply in_flat_map in Hx as (th & Hth' & Hx).
    destruct (Forall2_in_r _ _ _ _ _ _ Hdr Hth') as (s & S1 & S2). apply in_map_iff in S1 as (z & <- & S1).
    destruct S2 as (_ & _ & _ & _ & _ & _ & _ & _ & S9). specialize (S9 x Hx). cbn in S9.
    specialize (Hmin z (Hst z S1)). lia. }
  assert (Hx0' : In x0 (flat_map logl ths)).
  { apply (Permutation_in _ (Permutation_sym Hft)), in_or_app. auto. }
  assert (Hml : min_list (flat_map logl ths) = x0) by (apply min_list_eq; auto).
  assert (Hc : starts_on (map mm_of ths) (min_list (flat_map logl ths)) = c).
  { rewrite Hml, Hmt. unfold starts_on. rewrite filter_app, app_length.
    pose proof (starts_on_ninf tmm x0 F5) as Hz. unfold starts_on in Hz. rewrite Hz. cbn [Nat.add].
    unfold c, ends. clear - Hls. revert dyn Hls. induction starts as [|s t IH]; intros [|d dyn] Hls; cbn in Hls; try lia; auto.
    cbn [map combine filter fst]. rewrite Z.eqb_sym. destruct (x0 =? s); cbn [length]; rewrite (IH dyn) by lia; auto. }
  assert (Hgt : forall th, In th ths -> good n th).
  { intros th Hin. apply in_app_or in Hin as [Hin|Hin]; [apply Hgl; auto|].
    destruct (In_nth _ _ run0 Hin) as (i & I1 & <-). apply Hgd; auto. }
  destruct (join_labelled E n ths false w3) as [J1 J2].
  { unfold ths. intros He. apply app_eq_nil in He as [He _]. apply map_eq_nil in He. auto. }
  { auto. }
  { eapply Permutation_NoDup; [symmetry; exact Hft|auto]. }
  { rewrite Hmt. intros m e Hin. apply in_app_or in Hin as [Hin|Hin].
    - specialize (F5 _ Hin). discriminate.
    - apply (Permutation_in _ (Permutation_sym Hft)), in_or_app. left. apply Hst.
      unfold ends in Hin. apply in_combine_l, in_map_iff in Hin as (z & Hz & Hin). injection Hz as <-. auto. }
  rewrite Hc in J1, J2.
  assert (Hrun : forall rest : run -> W E run,
     (let* dyn_starts := choice_n (logl init) ndyn in
      let* threads := get_run_threads init in
      let* dyn := wmapM (fun start => get_dummy_thread U n None (Fin start)) dyn_starts in
      let* run := combine_threads (set_labels n (threads ++ dyn)) false in rest run) w1 =
     (let* run := combine_threads (set_labels n ths) false in rest run) w3).
  { intros rest. rewrite (wbind_run _ _ _ _ _ _ _ _ H2), (wbind_run _ _ _ _ _ _ _ _ Hth), (wbind_run _ _ _ _ _ _ _ _ H3). auto. }
  split; intros Hcc.
  - unfold get_dummy_dynamic_run. rewrite (wbind_run _ _ _ _ _ _ _ _ H1), Hrun.
    unfold wbind at 1. rewrite J1 by auto. auto.
  - destruct (J2 Hcc) as (r & labs2 & K1 & K2 & K3 & K4 & K5 & K6 & K7).
    assert (Hpl : Permutation (logl r) (flat_map logl ths)).
    { apply (Permutation_map fst) in K6. rewrite !combine_fst in K6; auto.
      - clear - Hgt. induction ths as [|th t IH]; auto. cbn [flat_map]. rewrite !app_length, IH by (intros; apply Hgt; right; auto).
        destruct (Hgt th (or_introl eq_refl)) as (lab & mm & Ha & _). rewrite (at_theta _ _ _ Ha). auto.
      - destruct K2 as ((_ & _ & _ & _ & V & _) & _). auto. }
    set (w4 := if (c =? 0)%nat then w3 else mkW (w_rng w3) (WDupStarts :: w_warn w3)) in *.
    destruct (reprocess E r labs2 (map mm_of ths) logl_init false false w4 K2 K3) as (r' & labs' & tmm' & w' & P1 & P2 & P3 & P4 & P5 & P6 & P7 & P8).
    { intros x Hx. apply (Permutation_in _ Hpl) in Hx. specialize (Hge x Hx). specialize (F7 x0 Hx0). lia. }
    exists r', labs', tmm', w'. split.
    + unfold get_dummy_dynamic_run. rewrite (wbind_run _ _ _ _ _ _ _ _ H1), Hrun, (wbind_run _ _ _ _ _ _ _ _ K1). exact P1.
    + split; [rewrite P2; unfold w4; destruct (c =? 0)%nat; auto|]. split; [auto|]. split; [auto|]. split; [auto|].
      split; [rewrite P3, Hpl; auto|].
      intros i Hir. rewrite P8, P3. rewrite P3 in Hir. rewrite (map_nth_in _ _ _ 0 0) by auto.
      rewrite Hmt. unfold live_at. destruct F1 as ((_ & Tm & _) & _). unfold get_tmm. rewrite Tm. auto.
Qed.
