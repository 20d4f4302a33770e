(** Runs processed from distinct logls are complete; threads all start from the
    whole prior exactly when no contour has more births than deaths (C12, C64). *)
From Verif Require Import Base ModelRun ModelData ProofBase ProofMonad Spec SpecRun
     ProofThreads ProofBirth ProofRun ProofProcess ProofDead ProofDict.

Lemma count_zsum : forall A (p : A -> bool) l,
    Z.of_nat (length (filter p l)) = zsum (map (fun x => Z.b2z (p x)) l).
Proof.
  induction l as [|x t IH]; auto. cbn [map filter]. rewrite zsum_cons, <- IH.
  destruct (p x); simpl length; simpl Z.b2z; lia.
Qed.

Lemma span_first : forall lg b labs tmm, canonical_threads b labs -> valid_births b ->
    (forall x, In x labs <-> 0 <= x < Z.of_nat (length tmm)) ->
    (forall k, (k < length tmm)%nat -> thread_span lg b labs (Z.of_nat k) (nth k tmm (NInf, 0))) ->
    forall s, starts_thread b s ->
      (Z.to_nat (nth s labs 0%Z) < length tmm)%nat /\
      fst (nth (Z.to_nat (nth s labs 0)) tmm (NInf, 0)) =
      if nth s b 0 =? -1 then NInf else Fin (nth (Z.to_nat (nth s b 0)) lg 0).
Proof.
  intros lg b labs tmm Hc Hv Hr Hsp s Hs. pose proof Hc as (Hl & _).
  assert (Hin : In (nth s labs 0) labs) by (apply nth_In; destruct Hs; lia).
  apply Hr in Hin. assert (Hk : (Z.to_nat (nth s labs 0%Z) < length tmm)%nat) by lia.
  split; auto. destruct (Hsp _ Hk) as (f & l & F1 & F2 & ->). cbn [fst].
  rewrite Z2Nat.id in F1 by lia.
  assert (f = s); [|subst; auto].
  apply (start_label_inj b labs Hc); auto.
  - eapply first_starts; eauto.
  - apply F1.
Qed.

(** All threads start from the whole prior iff no two points are born at the
    same death. *)
Lemma all_ninf_iff : forall lg b labs tmm, canonical_threads b labs -> valid_births b ->
    (forall x, In x labs <-> 0 <= x < Z.of_nat (length tmm)) ->
    (forall k, (k < length tmm)%nat -> thread_span lg b labs (Z.of_nat k) (nth k tmm (NInf, 0))) ->
    (forallb (fun mm => is_ninf (fst mm)) tmm = true <->
     forall i j, (i < j < length b)%nat -> nth i b 0 = nth j b 0 -> nth j b 0 = -1).
Proof.
  intros lg b labs tmm Hc Hv Hr Hsp. rewrite forallb_forall. split.
  - intros H i j Hij He.
    destruct (span_first lg b labs tmm Hc Hv Hr Hsp j) as [Hk Hf].
    { split; [lia|]. right. exists i. split; [lia|auto]. }
    specialize (H _ (nth_In _ (NInf, 0) Hk)). rewrite Hf in H.
    destruct (Z.eqb_spec (nth j b 0) (-1)); auto. discriminate.
  - intros H mm Hin. destruct (In_nth _ _ (NInf, 0) Hin) as (k & Hk & <-).
    destruct (Hsp k Hk) as (f & l & F1 & F2 & ->). cbn [fst].
    pose proof (first_starts b labs Hv Hc _ _ F1) as [S1 S2].
    destruct S2 as [->|(j & J1 & J2)]; [reflexivity|].
    rewrite (H j f) by (auto; lia). reflexivity.
Qed.

(** births <= deaths on every contour iff the allocation is injective. *)
Lemma occurs_where : forall c l, occurs c l = length (where_ (Z.eqb c) l).
Proof. intros. rewrite where_length. apply occurs_countb. Qed.

Lemma two_occurs : forall c l i j, (i < j < length l)%nat -> nth i l 0 = c -> nth j l 0 = c ->
    (1 < occurs c l)%nat.
Proof.
  intros c l i j Hij Hi Hj. rewrite occurs_where.
  assert (Hn : NoDup [i; j]) by (constructor; [simpl; lia|repeat constructor; simpl; tauto]).
  apply (NoDup_incl_length Hn). intros k [<-|[<-|[]]]; apply (in_where _ _ 0);
    (split; [lia|]); apply Z.eqb_eq; auto.
Qed.

Lemma occurs_pos : forall c l i, (i < length l)%nat -> nth i l 0 = c -> (0 < occurs c l)%nat.
Proof.
  intros c l i Hi He. rewrite occurs_where. assert (H : In i (where_ (Z.eqb c) l)).
  { apply (in_where _ _ 0). split; auto. apply Z.eqb_eq. auto. }
  destruct (where_ (Z.eqb c) l); [destruct H|simpl; lia].
Qed.

Lemma births_deaths_iff : forall E births logls da dw (w : world E) b w',
    length births = length logls ->
    birth_inds_given_contours births logls da dw w = (Ok b, w') ->
    ((forall i j, (i < j < length b)%nat -> nth i b 0 = nth j b 0 -> nth j b 0 = -1) <->
     (forall c, c <> nth 0 births 0 -> (occurs c births <= occurs c logls)%nat)).
Proof.
  intros E births logls da dw w b w' Hlen H.
  pose proof (births_returned E births logls da dw w b w' Hlen H) as [Hb Hon]. split.
  - intros Hinj c Hc. rewrite !occurs_where.
    rewrite <- (map_length (fun i => Z.to_nat (nth i b 0))).
    apply NoDup_incl_length.
    + assert (Hin : forall i j, In i (where_ (Z.eqb c) births) -> In j (where_ (Z.eqb c) births) ->
               Z.to_nat (nth i b 0) = Z.to_nat (nth j b 0) -> i = j).
      { intros i j Hi Hj He. apply (in_where _ _ 0) in Hi as [Hi1 Hi2], Hj as [Hj1 Hj2].
        apply Z.eqb_eq in Hi2, Hj2.
        destruct (proj2 (Hon i Hi1)) as [A1 _]; [congruence|].
        destruct (proj2 (Hon j Hj1)) as [A2 _]; [congruence|].
        destruct (lt_eq_lt_dec i j) as [[Hl| ->]|Hl]; auto.
        - specialize (Hinj i j ltac:(lia) ltac:(lia)). lia.
        - specialize (Hinj j i ltac:(lia) ltac:(lia)). lia. }
      pose proof (where_NoDup _ (Z.eqb c) births) as Hnd.
      induction Hnd as [|x l Hx Hnd IH]; simpl; constructor.
      * rewrite in_map_iff. intros (y & Y1 & Y2).
        apply Hx. rewrite (Hin x y); auto; [left|right]; auto.
      * apply IH. intros i j I1 I2. apply Hin; right; auto.
    + intros k Hk. apply in_map_iff in Hk as (i & <- & Hi).
      apply (in_where _ _ 0) in Hi as [Hi1 Hi2]. apply Z.eqb_eq in Hi2.
      destruct (proj2 (Hon i Hi1)) as [A1 A2]; [congruence|].
      apply (in_where _ _ 0). split; [lia|]. apply Z.eqb_eq. congruence.
  - intros Hocc i j Hij He.
    destruct (Z.eq_dec (nth j births 0) (nth 0 births 0)) as [Hz|Hz]; [apply Hon; auto; lia|].
    exfalso.
    destruct (proj2 (Hon j ltac:(lia)) Hz) as [A1 A2].
    assert (Hz' : nth i births 0 <> nth 0 births 0).
    { intros Hz'. rewrite (proj1 (Hon i ltac:(lia)) Hz') in He. lia. }
    destruct (proj2 (Hon i ltac:(lia)) Hz') as [A3 A4].
    assert (Hbb : nth i births 0 = nth j births 0) by (rewrite <- A2, <- A4, He; auto).
    assert (H2 : (1 < occurs (nth i births 0%Z) births)%nat).
    { apply two_occurs with i j; auto. lia. }
    specialize (Hocc _ Hz') as Ho.
    destruct (births_before_deaths E births logls da dw w b w' Hlen H (fun c Hc _ => Hocc c Hc) i ltac:(lia))
      as [_ Hd].
    apply (Hd j ltac:(lia) ltac:(lia) Hbb Hz' ltac:(lia)). auto.
Qed.

(** The allocation behind a processed run. *)
Lemma process_births : forall E init s da dw (w : world E) r w',
    well_formed init (points s) -> process_samples_array s da dw w = (Ok r, w') ->
    let s' := sort_samps E s in
    exists b w1, birth_inds_given_contours (map s_birth s') (map s_logl s') da dw w = (Ok b, w1) /\
      (forallb (fun mm => is_ninf (fst mm)) (get_tmm r) = true <->
       forall i j, (i < j < length b)%nat -> nth i b 0 = nth j b 0 -> nth j b 0 = -1).
Proof.
  intros E init s da dw w r w' Hwf H. cbv zeta.
  pose proof (well_formed_perm _ _ _ (Permutation_sym (points_sort E s)) Hwf) as Hwf'.
  pose proof (sort_samps_sorted E s) as Hs. unfold process_samples_array in H.
  set (s' := sort_samps E s) in *.
  apply wbind_Ok in H as (b0 & w0 & H0 & H).
  destruct (wf_birth_inds init s' Hwf' Hs E da dw w) as (b & w1 & H1 & H2 & H3 & H4 & H5 & _).
  { intros ->. unfold birth_inds_given_contours in H0. apply wbind_Ok in H0 as (u & w2 & H0 & _).
    pose proof (check_logls_spec E (map s_logl s') true dw w) as Hc. rewrite H0 in Hc.
    apply Hc; auto. }
  rewrite H1 in H0. injection H0 as <- <-.
  assert (Hlen : length b = length s') by (destruct H2 as [H2 _]; rewrite H2, map_length; auto).
  destruct (process_tail E (map s_logl s') (map s_theta s') b w1 H3 H4) as (labs & tmm & nl & P1 & P2 & P3 & P4 & P5).
  { rewrite map_length; auto. }
  { rewrite map_length; auto. }
  rewrite map_length in P1. pose proof (eq_trans (eq_sym P1) H) as H6. injection H6 as <- <-.
  exists b, w1. split; auto. unfold get_tmm. cbn [thread_min_max].
  destruct P3 as (T & -> & P6).
  apply (all_ninf_iff (map s_logl s') b labs); auto.
  - rewrite map_length, zrange_length. auto.
  - rewrite map_length, zrange_length.
    intros k Hk. rewrite (map_nth_in _ _ _ (NInf, 0) 0) by (rewrite zrange_length; auto).
    rewrite nth_zrange by auto.
    assert (Hin : In (Z.of_nat k) labs) by (apply P6; lia).
    exists (hd 0%nat (thread_inds labs (Z.of_nat k))), (last (thread_inds labs (Z.of_nat k)) 0%nat).
    split; [apply hd_first; auto|]. split; [apply last_last; auto|]. reflexivity.
Qed.

Lemma occurs_perm : forall c l m, Permutation l m -> occurs c l = occurs c m.
Proof. intros. rewrite !occurs_countb. apply countb_perm; auto. Qed.

Theorem static_iff : forall E init s da dw (w : world E) r w',
    well_formed init (points s) -> process_samples_array s da dw w = (Ok r, w') ->
    (forallb (fun mm => is_ninf (fst mm)) (get_tmm r) = true <->
     forall c, c <> init -> (occurs c (map s_birth s) <= occurs c (map s_logl s))%nat).
Proof.
  intros E init s da dw w r w' Hwf H.
  destruct (process_births E init s da dw w r w' Hwf H) as (b & w1 & H1 & H2).
  rewrite H2.
  assert (Hlen : length (map s_birth (sort_samps E s)) = length (map s_logl (sort_samps E s)))
    by (rewrite !map_length; auto).
  rewrite (births_deaths_iff E _ _ da dw w b w1 Hlen H1).
  pose proof (well_formed_perm _ _ _ (Permutation_sym (points_sort E s)) Hwf) as Hwf'.
  rewrite (wf_first init _ Hwf' (sort_samps_sorted E s)).
  split; intros Hx c Hc; specialize (Hx c Hc);
  rewrite (occurs_perm c (map s_birth (sort_samps E s)) (map s_birth s)) in * by (apply Permutation_map, sort_samps_perm);
  rewrite (occurs_perm c (map s_logl (sort_samps E s)) (map s_logl s)) in * by (apply Permutation_map, sort_samps_perm);
  auto.
Qed.

(** ** Processed runs are complete *)
Theorem processed_complete : forall E init s r, well_formed init (points s) ->
    NoDup (map s_logl s) -> processed (sort_samps E s) r ->
    exists labs tmm, complete_run r labs tmm /\ output r = None /\ settings r = None /\
      (forall m e, In (Fin m, e) tmm -> (1 < occurs m (map s_birth s))%nat).
Proof.
  intros E init s r Hwf Hnd Hp.
  destruct (processed_consistent E init s r Hwf Hp) as (labs0 & tmm0 & Hcon & Hset).
  destruct Hp as (P1 & P2 & P3 & P4 & b & labs & tmm & B1 & B2 & B3 & B4 & B5 & B6 & B7 & B8 & B9).
  assert (labs0 = labs) by (destruct Hcon as (C1 & _); congruence). subst.
  assert (tmm0 = tmm) by (destruct Hcon as (_ & C1 & _); congruence). subst.
  pose proof (well_formed_perm _ _ _ (Permutation_sym (points_sort E s)) Hwf) as Hwf'.
  pose proof (sort_samps_sorted E s) as Hs.
  assert (Hnd' : NoDup (map s_logl (sort_samps E s))).
  { eapply Permutation_NoDup; [|exact Hnd]. apply Permutation_map. symmetry. apply sort_samps_perm. }
  assert (Hocc : forall c, occurs c (map s_birth (sort_samps E s)) = occurs c (map s_birth s)).
  { intros. apply occurs_perm, Permutation_map, sort_samps_perm. }
  set (s' := sort_samps E s) in *.
  pose proof B1 as [Hbl Hon]. rewrite map_length in Hbl, Hon.
  pose proof B4 as [Hll _].
  assert (Hstrict : forall x y, (x < length s')%nat -> (y < length s')%nat ->
            ((x < y)%nat <-> nth x (map s_logl s') 0 < nth y (map s_logl s') 0)).
  { intros x y Hx Hy. assert (Hle : forall u v, (u <= v < length s')%nat -> nth u (map s_logl s') 0 <= nth v (map s_logl s') 0).
    { intros. apply ssorted_le_nth_le; auto. rewrite map_length; auto. }
    split; intros H.
    - assert (nth x (map s_logl s') 0 <> nth y (map s_logl s') 0).
      { intros He. apply (proj1 (NoDup_nth _ 0)) in He; auto; try (rewrite map_length; auto). lia. }
      specialize (Hle x y ltac:(lia)). lia.
    - destruct (le_lt_dec y x) as [Hxy|]; auto. specialize (Hle y x ltac:(lia)). lia. }
  (* spans *)
  assert (Hspan : forall k, (k < length tmm)%nat ->
      exists f l, first_of labs (Z.of_nat k) f /\ last_of labs (Z.of_nat k) l /\
       f = hd 0%nat (thread_inds labs (Z.of_nat k)) /\ l = last (thread_inds labs (Z.of_nat k)) 0%nat /\
       (f <= l < length s')%nat /\ starts_thread b f /\
       nth k tmm (NInf, 0) = (if nth f b 0 =? -1 then NInf else Fin (nth (Z.to_nat (nth f b 0)) (map s_logl s') 0),
                    nth l (map s_logl s') 0)).
  { intros k Hk. destruct (B7 k Hk) as (f & l & F1 & F2 & F3). exists f, l.
    assert (Hin : In (Z.of_nat k) labs) by (apply B6; lia).
    split; auto. split; auto.
    split; [apply (first_unique labs (Z.of_nat k)); auto; apply hd_first; auto|].
    split; [apply (last_unique labs (Z.of_nat k)); auto; apply last_last; auto|].
    split; [|split; auto; eapply first_starts; eauto].
    destruct F1 as (F11 & F12 & F13), F2 as (F21 & F22 & F23). split; [|lia].
    destruct (le_lt_dec f l) as [|Hlt]; auto. exfalso. apply (F23 f); auto. }
  exists labs, tmm. split; [|split; [auto|split; [auto|]]].
  - split; auto. split; [rewrite P1; auto|].
    split; [|split].
    + intros k f Hk Hf. destruct (Hspan k Hk) as (f' & l & F1 & F2 & _ & _ & F5 & F6 & ->).
      cbn [fst]. assert (f' = f) by (eapply first_unique; eauto). subst f'.
      destruct (Z.eqb_spec (nth f b 0) (-1)) as [|Hne]; auto. cbn [starts_below].
      apply Z.ltb_lt. rewrite P1. apply Hstrict; try lia; destruct F6 as [F6 _];
        specialize (B2 f F6); lia.
    + intros m e Hin. destruct (In_nth _ _ (NInf, 0) Hin) as (k & Hk & Hk').
      destruct (Hspan k Hk) as (f & l & F1 & F2 & _ & _ & F5 & F6 & Hm). rewrite Hk' in Hm.
      destruct (Z.eqb_spec (nth f b 0) (-1)) as [|Hne]; [discriminate|]. injection Hm as -> _.
      rewrite P1. apply nth_In. rewrite map_length. destruct F6 as [F6 _].
      specialize (B2 f F6). lia.
    + intros i Hi. rewrite B9 by auto. f_equal. apply Nat2Z.inj.
      rewrite <- alive_sum by (auto; rewrite P1, map_length in Hi; lia).
      rewrite <- Hll.
      rewrite <- (zsum_perm _ _ (Permutation_map _ (label_partition labs (length tmm) (fun x Hx => proj1 (B6 x) Hx)))).
      rewrite zsum_flat_map. unfold live_at. rewrite count_zsum. f_equal.
      apply nth_ext' with (d := 0); [rewrite !map_length, zrange_length; auto|].
      intros k Hk. rewrite map_length, zrange_length in Hk.
      rewrite (map_nth_in _ _ _ 0 0) by (rewrite zrange_length; auto).
      rewrite (map_nth_in _ _ _ 0 (NInf, 0)) by auto.
      rewrite nth_zrange by auto.
      assert (Hin : In (Z.of_nat k) labs) by (apply B6; lia).
      rewrite (chain_count b labs B2 B4) by auto.
      destruct (Hspan k Hk) as (f & l & F1 & F2 & F3 & F4 & F5 & F6 & ->).
      rewrite <- F3, <- F4. rewrite P1 in *. rewrite map_length in Hi.
      unfold covers. cbn [fst snd].
      assert (Hbf : -1 <= nth f b 0 < Z.of_nat f) by (apply B2; lia).
      assert (H1 : (nth i (map s_logl s') 0 <=? nth l (map s_logl s') 0) = negb (Z.of_nat l <? Z.of_nat i)).
      { pose proof (Hstrict l i ltac:(lia) ltac:(lia)) as HH.
        destruct (Z.leb_spec (nth i (map s_logl s') 0) (nth l (map s_logl s') 0));
        destruct (Z.ltb_spec (Z.of_nat l) (Z.of_nat i)); auto; simpl.
        - destruct HH as [HH _]. specialize (HH ltac:(lia)). lia.
        - destruct HH as [_ HH]. specialize (HH ltac:(lia)). lia. }
      rewrite H1.
      assert (H2 : starts_below (if nth f b 0 =? -1 then NInf else Fin (nth (Z.to_nat (nth f b 0)) (map s_logl s') 0))
                     (nth i (map s_logl s') 0) = (nth f b 0 <? Z.of_nat i)).
      { destruct (Z.eqb_spec (nth f b 0) (-1)) as [->|Hne]; cbn [starts_below].
        - symmetry. apply Z.ltb_lt. lia.
        - pose proof (Hstrict (Z.to_nat (nth f b 0)) i ltac:(lia) ltac:(lia)) as HH.
          apply Bool.eq_iff_eq_true. rewrite !Z.ltb_lt. rewrite <- HH. lia. }
      rewrite H2.
      destruct (Z.ltb_spec (nth f b 0) (Z.of_nat i)); destruct (Z.ltb_spec (Z.of_nat l) (Z.of_nat i));
        cbn [Z.b2z negb andb]; lia.
  - intros m e Hin. destruct (In_nth _ _ (NInf, 0) Hin) as (k & Hk & Hk').
    destruct (Hspan k Hk) as (f & l & F1 & F2 & _ & _ & F5 & F6 & Hm). rewrite Hk' in Hm.
    destruct (Z.eqb_spec (nth f b 0) (-1)) as [|Hne]; [discriminate|]. injection Hm as -> _.
    rewrite <- Hocc. destruct F6 as [F61 [F62|(j & J1 & J2)]]; [lia|].
    rewrite Hbl in F61.
    assert (G : forall q, (q < length s')%nat -> nth q b 0 <> -1 ->
               nth (Z.to_nat (nth q b 0)) (map s_logl s') 0 = nth q (map s_birth s') 0).
    { intros q Hq Hqn. destruct (Hon q Hq) as [O1 O2].
      destruct (Z.eq_dec (nth q (map s_birth s') 0) (nth 0 (map s_birth s') 0)) as [He|He].
      - exfalso. apply Hqn. auto.
      - apply O2; auto. }
    apply two_occurs with j f; [rewrite map_length; lia| |].
    + rewrite <- J2. symmetry. apply G; [lia|congruence].
    + symmetry. apply G; auto.
Qed.
