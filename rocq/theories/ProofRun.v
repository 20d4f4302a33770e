(** check_ns_run, array_given_run, dict_given_run_array, get_run_threads. *)
From Verif Require Import Base ModelRun ProofBase ProofMonad Spec SpecRun ProofBirth.

(** ** first and last positions *)
Lemma where_label : forall k labs i,
    In i (where_ (Z.eqb k) labs) <-> (i < length labs)%nat /\ nth i labs 0 = k.
Proof. intros. rewrite (in_where _ _ 0), Z.eqb_eq. intuition. Qed.

Lemma hd_first : forall k labs, In k labs ->
    first_of labs k (hd 0%nat (where_ (Z.eqb k) labs)).
Proof.
  intros k labs H. destruct (In_nth _ _ 0 H) as [i [Hi He]].
  pose proof (where_sorted _ (Z.eqb k) labs) as Hs.
  pose proof (where_label k labs) as Hin.
  destruct (where_ (Z.eqb k) labs) as [|h t].
  - exfalso. apply (proj2 (Hin i)); auto.
  - simpl. inversion Hs; subst. rewrite Forall_forall in H3.
    destruct (proj1 (Hin h) (or_introl eq_refl)) as [H4 H5]. repeat split; auto.
    intros j Hj He'. assert (Hj' : In j (h :: t)) by (apply Hin; split; auto; lia).
    destruct Hj' as [->|Hj']; [lia|]. apply H3 in Hj'. lia.
Qed.
Lemma first_unique : forall labs k f f', first_of labs k f -> first_of labs k f' -> f = f'.
Proof.
  intros labs k f f' (H1 & H2 & H3) (H1' & H2' & H3').
  destruct (lt_eq_lt_dec f f') as [[H|H]|H]; auto.
  - exfalso. apply (H3' f); auto.
  - exfalso. apply (H3 f'); auto.
Qed.
Lemma last_sorted_max : forall l d x, StronglySorted lt l -> In x l -> (x <= last l d)%nat.
Proof.
  intros l d x Hs Hx. rewrite last_nth. destruct (In_nth _ _ d Hx) as [i [Hi <-]].
  destruct (Nat.eq_dec i (length l - 1)) as [->|Hn]; auto.
  apply Nat.lt_le_incl. apply (proj1 (ssorted_nth _ lt d l) Hs). lia.
Qed.
Lemma last_last : forall k labs, In k labs ->
    last_of labs k (last (where_ (Z.eqb k) labs) 0%nat).
Proof.
  intros k labs H. destruct (In_nth _ _ 0 H) as [i [Hi He]].
  pose proof (where_sorted _ (Z.eqb k) labs) as Hs.
  pose proof (where_label k labs) as Hin.
  assert (Hne : where_ (Z.eqb k) labs <> []).
  { intros Hn. rewrite Hn in Hin. apply (proj2 (Hin i)); auto. }
  destruct (proj1 (Hin _) (last_in _ 0%nat _ Hne)) as [H1 H2]. repeat split; auto.
  intros j Hj He'. assert (Hj' : In j (where_ (Z.eqb k) labs)) by (apply Hin; split; auto; lia).
  apply (last_sorted_max _ 0%nat _ Hs) in Hj'. lia.
Qed.
Lemma last_unique : forall labs k f f', last_of labs k f -> last_of labs k f' -> f = f'.
Proof.
  intros labs k f f' (H1 & H2 & H3) (H1' & H2' & H3').
  destruct (lt_eq_lt_dec f f') as [[H|H]|H]; auto.
  - exfalso. apply (H3 f'); auto.
  - exfalso. apply (H3' f); auto.
Qed.

(** ** check_ns_run *)
Lemma foldM_unit : forall A (f : A -> res unit) l,
    foldM (fun _ x => f x) l tt = Ok tt <-> forall x, In x l -> f x = Ok tt.
Proof.
  induction l as [|x t IH]; simpl.
  - split; auto. tauto.
  - destruct (f x) as [[]|e] eqn:He; simpl.
    + rewrite IH. split; intros H; auto. intros y [<-|Hy]; auto.
    + split; [discriminate|]. intros H. rewrite H in He by auto. discriminate.
Qed.

Lemma Ok_unit : forall (r : res unit), (exists x, r = Ok x) <-> r = Ok tt.
Proof. intros. split; [intros [[] H]; auto|eauto]. Qed.

Lemma ext_leb_opt : forall e z,
    ext_leb e z = true <-> forall m, ext_opt e = Some m -> m <= z.
Proof.
  intros [|a] z; simpl.
  - split; auto. discriminate.
  - rewrite Z.leb_le. split; intros H; auto. inversion 1; subst; auto.
Qed.

Lemma check_threads_ok : forall r labs tmm,
    thread_labels r = Some labs -> thread_min_max r = Some tmm ->
    (check_ns_run_threads r = Ok tt <->
     (forall x, In x labs <-> 0 <= x < Z.of_nat (length tmm)) /\
     In None (map (fun mm => ext_opt (fst mm)) tmm) /\
     (forall k, (k < length tmm)%nat ->
        (forall f m, first_of labs (Z.of_nat k) f ->
            nth k (map (fun mm => ext_opt (fst mm)) tmm) None = Some m ->
            m <= nth f (logl r) 0) /\
        (forall l, last_of labs (Z.of_nat k) l ->
            nth k (map snd tmm) 0 = nth l (logl r) 0))).
Proof.
  intros r labs tmm Hl Ht. unfold check_ns_run_threads. rewrite Hl, Ht.
  assert (Hu : list_eqb (zrange (length tmm)) (unique labs) = true <->
               forall x, In x labs <-> 0 <= x < Z.of_nat (length tmm)).
  { rewrite list_eqb_eq. split.
    - intros H x. rewrite <- in_unique, <- H, in_zrange. tauto.
    - intros H. symmetry. apply unique_zrange; auto. }
  assert (Hn : existsb (fun mm => is_ninf (fst mm)) tmm = true <->
               In None (map (fun mm => ext_opt (fst mm)) tmm)).
  { rewrite existsb_exists, in_map_iff. split; intros [mm [H1 H2]]; exists mm.
    - destruct (fst mm); [auto|discriminate].
    - destruct (fst mm); [auto|discriminate]. }
  destruct (list_eqb (zrange (length tmm)) (unique labs)); simpl.
  2: { split; [discriminate|]. intros (H & _). apply Hu in H. discriminate. }
  destruct (existsb (fun mm => is_ninf (fst mm)) tmm); simpl.
  2: { split; [discriminate|]. intros (_ & H & _). apply Hn in H. discriminate. }
  assert (Hu' := proj1 Hu eq_refl). assert (Hn' := proj1 Hn eq_refl).
  rewrite foldM_unit.
  assert (Hk : forall k, (k < length tmm)%nat ->
     (rbind (assertb (ext_leb (fst (nth k tmm (NInf, 0)))
                             (nth (hd 0%nat (where_ (Z.eqb (Z.of_nat k)) labs)) (logl r) 0)))
           (fun _ => assertb (snd (nth k tmm (NInf, 0)) =?
                        nth (last (where_ (Z.eqb (Z.of_nat k)) labs) 0%nat) (logl r) 0)) = Ok tt
      <-> (forall f m, first_of labs (Z.of_nat k) f ->
            nth k (map (fun mm => ext_opt (fst mm)) tmm) None = Some m ->
            m <= nth f (logl r) 0) /\
        (forall l, last_of labs (Z.of_nat k) l ->
            nth k (map snd tmm) 0 = nth l (logl r) 0))).
  { intros k Hk. assert (Hin : In (Z.of_nat k) labs) by (apply Hu'; lia).
    pose proof (hd_first _ _ Hin) as Hf. pose proof (last_last _ _ Hin) as Hla.
    rewrite (map_nth_in _ _ (fun mm => ext_opt (fst mm)) None (NInf, 0)) by auto.
    rewrite (map_nth_in _ _ snd 0 (NInf, 0)) by auto.
    destruct (ext_leb (fst (nth k tmm (NInf, 0))) _) eqn:H1; simpl.
    - rewrite assertb_Ok, Z.eqb_eq. rewrite ext_leb_opt in H1. split.
      + intros H2. split.
        * intros f m Hf' Hm. rewrite (first_unique _ _ _ _ Hf' Hf). auto.
        * intros l Hl'. rewrite (last_unique _ _ _ _ Hl' Hla). auto.
      + intros [_ H3]. auto.
    - split; [discriminate|]. intros [H2 _].
      assert (ext_leb (fst (nth k tmm (NInf, 0)))
        (nth (hd 0%nat (where_ (Z.eqb (Z.of_nat k)) labs)) (logl r) 0) = true).
      { apply ext_leb_opt. intros m Hm. eapply H2; eauto. }
      congruence. }
  split.
  - intros H. split; [exact Hu'|]. split; [exact Hn'|]. intros k Hk'. apply Hk; auto.
    specialize (H (Z.of_nat k)). rewrite Nat2Z.id in H. apply H. apply in_unique, Hu'. lia.
  - intros (_ & _ & H) x Hx. apply in_unique, Hu' in Hx.
    specialize (Hk (Z.to_nat x) ltac:(lia)). rewrite Z2Nat.id in Hk by lia.
    apply Hk. specialize (H (Z.to_nat x) ltac:(lia)). rewrite Z2Nat.id in H by lia. auto.
Qed.

Lemma members_ok : forall r, check_ns_run_members r = Ok tt <->
    settings r = None /\ exists labs tmm, thread_labels r = Some labs /\
      thread_min_max r = Some tmm /\ length (nlive_array r) = length (logl r) /\
      length labs = length (logl r) /\ length (theta r) = length (logl r).
Proof.
  intros r. unfold check_ns_run_members.
  destruct (settings r); simpl; [split; [discriminate|intros [? _]; discriminate]|].
  destruct (thread_labels r) as [labs|]; simpl.
  2: { split; [discriminate|]. intros (_ & ? & ? & ? & _). discriminate. }
  destruct (thread_min_max r) as [tmm|]; simpl.
  2: { split; [discriminate|]. intros (_ & ? & ? & _ & ? & _). discriminate. }
  destruct (length (logl r) =? length (nlive_array r))%nat eqn:H1; simpl.
  2: { apply Nat.eqb_neq in H1. split; [discriminate|].
       intros (_ & ? & ? & A & B & C & _). congruence. }
  destruct (length (logl r) =? length labs)%nat eqn:H2; simpl.
  2: { apply Nat.eqb_neq in H2. split; [discriminate|].
       intros (_ & ? & ? & A & B & _ & C & _). congruence. }
  apply Nat.eqb_eq in H1, H2. rewrite assertb_Ok, Nat.eqb_eq. split.
  - intros H3. split; auto. exists labs, tmm. repeat split; auto.
  - intros (_ & ? & ? & A & B & C & D & F). auto.
Qed.

Lemma members_AE : forall r e, check_ns_run_members r = Raise e -> e = AssertionError.
Proof.
  intros r e. unfold check_ns_run_members, rbind, assertb.
  destruct (settings r), (thread_labels r), (thread_min_max r);
    repeat match goal with |- context [if ?b then _ else _] => destruct b end;
    congruence.
Qed.
Lemma threads_AE : forall r e labs tmm,
    thread_labels r = Some labs -> thread_min_max r = Some tmm ->
    check_ns_run_threads r = Raise e -> e = AssertionError.
Proof.
  intros r e labs tmm Hl Ht. unfold check_ns_run_threads. rewrite Hl, Ht.
  destruct (list_eqb _ _); simpl; [|congruence].
  destruct (existsb _ _); simpl; [|congruence].
  generalize (unique labs). intros l. induction l as [|x t IH]; simpl; [discriminate|].
  unfold assertb at 1. destruct (ext_leb _ _); simpl; [|congruence].
  unfold assertb at 1. destruct (snd _ =? _); simpl; [auto|congruence].
Qed.

(** check_ns_run never touches the random state, raises only AssertionError,
    and accepts exactly the valid runs. *)
Theorem check_ns_run_spec : forall E r da dw (w : world E),
    match check_ns_run r da dw w with
    | (Ok _, w') => valid_run r /\ (da = true -> NoDup (logl r)) /\ w_rng w' = w_rng w /\
                    (NoDup (logl r) \/ dw = false -> w' = w)
    | (Raise e, w') => e = AssertionError /\ w_rng w' = w_rng w /\
                       ~ (valid_run r /\ (da = true -> NoDup (logl r)))
    end.
Proof.
  intros. unfold check_ns_run, wlift, wbind at 1.
  destruct (check_ns_run_members r) as [[]|e] eqn:Hm.
  2: { split; [eapply members_AE; eauto|]. split; auto. intros [H _].
       assert (check_ns_run_members r = Ok tt); [|congruence].
       apply members_ok. destruct H as (H0 & labs & tmm & H1 & H2 & H3 & H4 & H5 & _).
       split; auto. exists labs, tmm. auto. }
  apply members_ok in Hm as (M0 & labs & tmm & M1 & M2 & M3 & M4 & M5).
  pose proof (check_logls_spec E (logl r) da dw w) as Hc.
  assert (HraiseAE : forall e w1, check_ns_run_logls (logl r) da dw w = (Raise e, w1) ->
                       e = AssertionError /\ w_rng w1 = w_rng w).
  { intros e w1. unfold check_ns_run_logls, wbind, wassert, wlift, assertb.
    destruct (list_eqb _ _); [|inversion 1; auto].
    destruct da; [destruct (_ =? 0)%nat; inversion 1; auto|].
    destruct dw; [destruct (_ =? 0)%nat; inversion 1; auto|inversion 1]. }
  destruct (check_ns_run_logls (logl r) da dw w) as [[u|e] w1] eqn:Hl.
  - rewrite (wbind_run _ _ _ _ _ _ _ _ Hl). destruct Hc as (C1 & C2 & C3 & C4).
    pose proof (check_threads_ok r labs tmm M1 M2) as Ht.
    destruct (check_ns_run_threads r) as [[]|e] eqn:He.
    + split; [|split; [|split]]; auto.
      split; auto. exists labs, tmm. destruct (proj1 Ht eq_refl) as (T1 & T2 & T3).
      repeat (split; [solve [auto | rewrite !map_length; auto]|]).
      rewrite map_length. auto.
    + split; [eapply threads_AE; eauto|]. split; auto.
      intros [(V0 & labs' & tmm' & V1 & V2 & V3) _].
      replace labs' with labs in * by congruence. replace tmm' with tmm in * by congruence.
      destruct V3 as (_ & _ & _ & _ & _ & V4 & V5 & V6). rewrite map_length in V4, V6.
      assert (Raise e = Ok tt) by (apply Ht; auto). discriminate.
  - rewrite (wbind_raise _ _ _ _ _ _ _ _ Hl). destruct (HraiseAE e w1 eq_refl) as [-> Hr].
    split; auto. split; auto. intros [(V0 & labs' & tmm' & V1 & V2 & V3) Hd].
    destruct V3 as (_ & _ & _ & V4 & _). tauto.
Qed.

Corollary check_ns_run_accepts : forall E r da dw (w : world E),
    valid_run r -> (da = true -> NoDup (logl r)) ->
    exists w', check_ns_run r da dw w = (Ok tt, w') /\ w_rng w' = w_rng w /\
               (NoDup (logl r) \/ dw = false -> w' = w).
Proof.
  intros. pose proof (check_ns_run_spec E r da dw w) as Hs.
  destruct (check_ns_run r da dw w) as [[[]|e] w'].
  - exists w'. tauto.
  - tauto.
Qed.

(** ** Arrays *)
Lemma filter_take : forall A (d : A) p l, filter p l = take d l (where_ p l).
Proof.
  intros A d p l. unfold where_, take.
  assert (H : forall k, filter p l = map (fun i => nth (i - k) l d) (where_from p k l)).
  { induction l as [|x t IH]; intros k; simpl; auto.
    assert (Ht : map (fun i => match (i - k)%nat with 0%nat => x | S m => nth m t d end)
                   (where_from p (S k) t) = filter p t).
    { rewrite (IH (S k)). apply map_ext_in. intros i Hi. apply where_from_lb in Hi.
      replace (i - k)%nat with (S (i - S k)) by lia. auto. }
    destruct (p x); simpl; rewrite Ht; auto.
    replace (k - k)%nat with 0%nat by lia. auto. }
  rewrite (H 0%nat). apply map_ext. intros. rewrite Nat.sub_0_r. auto.
Qed.

Lemma where_map : forall A B (f : A -> B) p l, where_ p (map f l) = where_ (fun x => p (f x)) l.
Proof.
  intros. unfold where_. generalize 0%nat.
  induction l as [|x t IH]; intros k; simpl; auto. rewrite IH. auto.
Qed.

Lemma where_ext : forall A (p q : A -> bool) l,
    (forall x, In x l -> p x = q x) -> where_ p l = where_ q l.
Proof.
  intros A p q l. unfold where_. generalize 0%nat.
  induction l as [|x t IH]; intros k H; simpl; auto.
  rewrite (H x) by (left; auto). rewrite IH by (intros; apply H; right; auto). auto.
Qed.

Lemma zip_rows_length : forall ls labs dns ths,
    length labs = length ls -> length dns = length ls -> length ths = length ls ->
    length (zip_rows ls labs dns ths) = length ls.
Proof.
  induction ls; intros [|] [|] [|] H1 H2 H3; simpl in *; try discriminate; auto.
Qed.
Lemma zip_rows_logl : forall ls labs dns ths,
    length labs = length ls -> length dns = length ls -> length ths = length ls ->
    map r_logl (zip_rows ls labs dns ths) = ls.
Proof.
  induction ls; intros [|] [|] [|] H1 H2 H3; simpl in *; try discriminate; auto.
  f_equal; auto.
Qed.
Lemma zip_rows_lab : forall ls labs dns ths,
    length labs = length ls -> length dns = length ls -> length ths = length ls ->
    map r_lab (zip_rows ls labs dns ths) = labs.
Proof.
  induction ls; intros [|] [|] [|] H1 H2 H3; simpl in *; try discriminate; auto.
  f_equal; auto.
Qed.
Lemma zip_rows_dn : forall ls labs dns ths,
    length labs = length ls -> length dns = length ls -> length ths = length ls ->
    map r_dn (zip_rows ls labs dns ths) = dns.
Proof.
  induction ls; intros [|] [|] [|] H1 H2 H3; simpl in *; try discriminate; auto.
  f_equal; auto.
Qed.
Lemma zip_rows_theta : forall ls labs dns ths,
    length labs = length ls -> length dns = length ls -> length ths = length ls ->
    map r_theta (zip_rows ls labs dns ths) = ths.
Proof.
  induction ls; intros [|] [|] [|] H1 H2 H3; simpl in *; try discriminate; auto.
  f_equal; auto.
Qed.

Lemma thread_dn_logl : forall rows, map r_logl (thread_dn rows) = map r_logl rows.
Proof. induction rows as [|x [|y t] IH]; auto. simpl in *. congruence. Qed.
Lemma thread_dn_lab : forall rows, map r_lab (thread_dn rows) = map r_lab rows.
Proof. induction rows as [|x [|y t] IH]; auto. simpl in *. congruence. Qed.
Lemma thread_dn_theta : forall rows, map r_theta (thread_dn rows) = map r_theta rows.
Proof. induction rows as [|x [|y t] IH]; auto. simpl in *. congruence. Qed.
Lemma thread_dn_dn : forall rows, rows <> [] ->
    map r_dn (thread_dn rows) = repeat 0 (length rows - 1) ++ [-1].
Proof.
  induction rows as [|x [|y t] IH]; intros H; [congruence|auto|].
  simpl in *. rewrite IH by congruence. rewrite Nat.sub_0_r. auto.
Qed.

Lemma cumsum_zeros : forall m a, cumsum_from a (repeat 0 m) = repeat a m.
Proof. induction m; simpl; intros; auto. rewrite Z.add_0_r, IHm; auto. Qed.

(** A single thread. *)
Lemma dict_single : forall E rows mm (w : world E), rows <> [] ->
    ext_leb (fst mm) (min_list (map r_logl rows)) = true ->
    dict_given_run_array (thread_dn rows) [mm] w =
    (Ok (mkRun (map r_logl rows) (map r_theta rows) (repeat 1 (length rows))
               (Some (map r_lab rows)) (Some [mm]) None None), w).
Proof.
  intros E rows mm w Hne Hle. unfold dict_given_run_array.
  destruct (thread_dn rows) as [|x t] eqn:Htd.
  { destruct rows as [|y [|z u]]; [congruence|discriminate|discriminate]. }
  rewrite <- Htd. clear x t Htd.
  rewrite thread_dn_logl, thread_dn_lab, thread_dn_theta, thread_dn_dn by auto.
  simpl. rewrite Hle. simpl. rewrite but_last_app. unfold cumsum. rewrite cumsum_zeros.
  assert (Hnl : (1 :: map (Z.add 1) (repeat 0 (length rows - 1))) = repeat 1 (length rows)).
  { destruct rows as [|y u]; [congruence|]. simpl. rewrite Nat.sub_0_r. f_equal.
    generalize (length u). intros m. induction m; simpl; congruence. }
  assert (Hdup : ((1 <? (if ext_eqb (fst mm) (min_list (map r_logl rows)) then 1 else 0)) = false)%nat).
  { destruct (ext_eqb _ _); auto. }
  assert (Hl : last (repeat 1 (length rows)) 0 = 1).
  { destruct rows; [congruence|]. simpl length. generalize (length rows).
    induction n; auto. }
  assert (Hm : min_list (repeat 1 (length rows)) = 1).
  { destruct rows; [congruence|]. simpl. generalize (length rows).
    induction n; auto. }
  simpl in Hnl. unfold wbind, wassert, wlift, assertb, wret, warn. simpl.
  rewrite Hdup, Hnl, Hm, Hl. simpl. auto.
Qed.

(** The [k]-th thread of a run. *)
Definition thread_inds (labs : list Z) (k : Z) : list nat := where_ (Z.eqb k) labs.
Definition nth_thread (r : run) (labs : list Z) (k : Z) (mm : ext * Z) : run :=
  let idx := thread_inds labs k in
  mkRun (take 0 (logl r) idx) (take [] (theta r) idx) (repeat 1 (length idx))
        (Some (repeat k (length idx))) (Some [mm]) None None.

Lemma array_given_valid : forall r labs,
    thread_labels r = Some labs -> logl r <> [] ->
    length labs = length (logl r) -> length (nlive_array r) = length (logl r) ->
    length (theta r) = length (logl r) ->
    array_given_run r =
    Ok (zip_rows (logl r) labs (diff (nlive_array r) ++ [-1]) (theta r)).
Proof.
  intros r labs H0 Hne H1 H2 H3. unfold array_given_run. rewrite H0, H1, H2, H3, Nat.eqb_refl.
  simpl. destruct (logl r); [congruence|]. auto.
Qed.

Lemma combine_zrange : forall A (d : A) (l : list A),
    combine (zrange (length l)) l = map (fun k => (Z.of_nat k, nth k l d)) (seq 0 (length l)).
Proof.
  intros. apply nth_ext' with (d := (0, d)).
  - rewrite combine_length, zrange_length, map_length, seq_length. lia.
  - intros i Hi. rewrite combine_length, zrange_length in Hi.
    rewrite combine_nth by apply zrange_length. rewrite nth_zrange by lia.
    rewrite nth_map_seq by lia. auto.
Qed.

Lemma wmapM_pure : forall E A B (f : A -> W E B) (g : A -> B) l w,
    (forall x, In x l -> f x w = (Ok (g x), w)) -> wmapM f l w = (Ok (map g l), w).
Proof.
  induction l as [|x t IH]; intros w H; simpl; auto.
  rewrite (wbind_run _ _ _ _ _ _ _ _ (H x (or_introl eq_refl))).
  rewrite (wbind_run _ _ _ _ _ _ _ _ (IH w (fun y Hy => H y (or_intror Hy)))). auto.
Qed.

Lemma take_sorted : forall l idx, StronglySorted Z.le l -> StronglySorted lt idx ->
    (forall i, In i idx -> (i < length l)%nat) -> StronglySorted Z.le (take 0 l idx).
Proof.
  intros l idx Hl Hi Hlt. unfold take. apply ssorted_map.
  apply (ssorted_weaken _ lt); auto. intros x y Hx Hy Hxy.
  apply ssorted_le_nth_le; auto. split; [lia|auto].
Qed.

Theorem get_run_threads_spec : forall E r labs tmm (w : world E),
    consistent r labs tmm ->
    get_run_threads r w =
    (Ok (map (fun k => nth_thread r labs (Z.of_nat k) (nth k tmm (NInf, 0)))
             (seq 0 (length tmm))), w).
Proof.
  intros E r labs tmm w (Hl & Ht & V1 & V2 & V3 & V4 & V5 & V6 & V7 & V8).
  rewrite map_length in V6, V8.
  assert (Hne : logl r <> []).
  { intros Hn. assert (Hlabs : labs = []) by (destruct labs; auto; rewrite Hn in V2; discriminate).
    destruct tmm as [|mm t]; [destruct V7|]. assert (In 0 labs) by (apply V6; simpl; lia).
    rewrite Hlabs in H. auto. }
  unfold get_run_threads. rewrite (array_given_valid r labs) by auto.
  rewrite Hl, Ht. unfold wlift at 1, wbind at 1.
  rewrite (unique_zrange labs (length tmm)) by auto. rewrite zrange_length.
  rewrite (wbind_run _ _ _ _ _ _ _ _ (wassert_true E _ _ (Nat.eqb_refl _))).
  rewrite (combine_zrange _ (NInf, 0)).
  set (rows := zip_rows (logl r) labs (diff (nlive_array r) ++ [-1]) (theta r)).
  assert (Hdl : length (diff (nlive_array r) ++ [-1]) = length (logl r)).
  { rewrite app_length, diff_length, V1. simpl. destruct (logl r); [congruence|simpl; lia]. }
  assert (R1 : map r_logl rows = logl r) by (apply zip_rows_logl; auto).
  assert (R2 : map r_lab rows = labs) by (apply zip_rows_lab; auto).
  assert (R3 : map r_theta rows = theta r) by (apply zip_rows_theta; auto).
  assert (R4 : length rows = length (logl r)) by (apply zip_rows_length; auto).
  rewrite (wmapM_pure _ _ _ _ (fun p => nth_thread r labs (fst p) (snd p))).
  { rewrite map_map. auto. }
  intros [lab mm] Hp. apply in_map_iff in Hp as [k [Hk Hin]]. apply in_seq in Hin.
  inversion Hk as [[Hlab Hmm]]. rewrite Hlab, Hmm. clear Hk.
  assert (Hlk : In (Z.of_nat k) labs) by (apply V6; lia).
  assert (Hf : filter (fun x => r_lab x =? lab) rows = take row0 rows (thread_inds labs lab)).
  { rewrite (filter_take _ row0). unfold thread_inds. rewrite <- R2, where_map. f_equal.
    apply where_ext. intros. apply Z.eqb_sym. }
  assert (Hidx : forall i, In i (thread_inds labs lab) -> (i < length rows)%nat).
  { intros i Hi. apply where_label in Hi. rewrite R4, <- V2. tauto. }
  assert (T1 : map r_logl (take row0 rows (thread_inds labs lab)) = take 0 (logl r) (thread_inds labs lab)).
  { rewrite (take_map _ _ r_logl row0 0) by auto. rewrite R1. auto. }
  assert (T2 : map r_theta (take row0 rows (thread_inds labs lab)) = take [] (theta r) (thread_inds labs lab)).
  { rewrite (take_map _ _ r_theta row0 []) by auto. rewrite R3. auto. }
  assert (T3 : map r_lab (take row0 rows (thread_inds labs lab)) = repeat lab (length (thread_inds labs lab))).
  { rewrite (take_map _ _ r_lab row0 0) by auto. rewrite R2. unfold take.
    assert (Hall : forall i, In i (thread_inds labs lab) -> nth i labs 0 = lab).
    { intros i Hi. apply where_label in Hi. tauto. }
    revert Hall. generalize (thread_inds labs lab) as l. induction l as [|i t IH]; simpl; intros Hall; auto.
    rewrite Hall by auto. rewrite IH by auto. auto. }
  pose proof (hd_first _ _ Hlk) as Hfirst. pose proof (last_last _ _ Hlk) as Hlast.
  rewrite Hlab in Hlk, Hfirst, Hlast. fold (thread_inds labs lab) in Hfirst, Hlast.
  assert (Hine : thread_inds labs lab <> []).
  { destruct (In_nth _ _ 0 Hlk) as [i [Hi He]]. intros Hn.
    assert (Hc : In i (thread_inds labs lab)) by (apply where_label; auto).
    rewrite Hn in Hc. auto. }
  rewrite Hf.
  assert (Hrne : take row0 rows (thread_inds labs lab) <> []).
  { intros Hn. apply (f_equal (@length _)) in Hn. rewrite take_length in Hn.
    destruct (thread_inds labs lab); [congruence|discriminate]. }
  destruct (V8 k ltac:(lia)) as [V8a V8b]. rewrite Hlab in V8a, V8b.
  rewrite (map_nth_in _ _ snd 0 (NInf, 0)), Hmm in V8b by lia.
  rewrite (wbind_run _ _ _ _ _ w tt w).
  2: { apply wassert_true. apply Z.eqb_eq. rewrite (V8b _ Hlast).
       transitivity (last (map r_logl (thread_dn (take row0 rows (thread_inds labs lab)))) 0).
       - rewrite thread_dn_logl, T1. unfold take.
         rewrite !last_nth, map_length. rewrite (map_nth_in _ _ _ 0 0%nat); auto.
         destruct (thread_inds labs lab); [congruence|simpl; lia].
       - assert (Hd : thread_dn (take row0 rows (thread_inds labs lab)) <> []).
         { intros Hn. apply (f_equal (map r_logl)) in Hn. rewrite thread_dn_logl in Hn.
           apply map_eq_nil in Hn. auto. }
         rewrite !last_nth, map_length. apply map_nth_in.
         destruct (thread_dn _); [congruence|simpl; lia]. }
  simpl. rewrite dict_single; auto.
  - rewrite T1, T2, T3, take_length. reflexivity.
  - rewrite T1. rewrite min_list_sorted.
    + apply ext_leb_opt. intros m Hm. unfold take.
      rewrite (map_nth_in _ _ _ 0 0%nat) by (destruct (thread_inds labs lab); [congruence|simpl; lia]).
      rewrite <- hd_nth. apply V8a; auto.
      rewrite (map_nth_in _ _ (fun x => ext_opt (fst x)) None (NInf, 0)) by lia. rewrite Hmm. auto.
    + apply take_sorted; auto; [apply where_sorted|]. intros i Hi. rewrite <- R4. auto.
Qed.
