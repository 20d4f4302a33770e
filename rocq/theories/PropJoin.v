(** C92: combining processed runs and processing all their samples together. *)
From Verif Require Import Base ModelRun ModelData Envs Spec SpecRun ProofBase ProofMonad ProofBirth ProofRun
     ProofProcess ProofDead ProofJoin ProofMulti PropProcess PropCombine PropSamplers.

Lemma nodup_parts : forall (a b : list Z), NoDup (a ++ b) -> NoDup a /\ NoDup b.
Proof.
  induction a as [|x a IH]; intros b H; [split; [constructor|auto]|]. inversion H; subst. destruct (IH b H3) as (A & B).
  split; auto. constructor; auto. intros Hi. apply H2, in_or_app. auto.
Qed.
Lemma run_ends : forall r labs tmm m e, consistent r labs tmm -> In (m, e) tmm -> In e (logl r).
Proof.
  intros r labs tmm m e (H1 & H2 & V1 & V2 & V3 & V4 & V5 & V6 & V7 & V8) Hin.
  destruct (In_nth _ _ (NInf, 0) Hin) as (k & Hk & He).
  assert (Hkm : (k < length (map snd tmm))%nat) by (rewrite map_length; auto).
  destruct (V8 k Hkm) as (_ & V).
  assert (Hl : In (Z.of_nat k) labs) by (apply V6; lia).
  pose proof (last_last _ _ Hl) as HL. specialize (V _ HL). destruct HL as (HL & _).
  rewrite (nth_indep _ 0 (snd (NInf, 0))), map_nth, He in V by auto. cbn in V. rewrite V. apply nth_In. lia.
Qed.

(** The lowest point at or above [x]. *)
Lemma next_point : forall (l : list Z) x, (exists y, In y l /\ x <= y /\ forall z, In z l -> x <= z -> y <= z) \/
                                 forall z, In z l -> z < x.
Proof.
  induction l as [|a l IH]; intros x; [right; intros z []|].
  destruct (Z_lt_le_dec a x) as [Ha|Ha].
  - destruct (IH x) as [(y & Y1 & Y2 & Y3)|H].
    + left. exists y. split; [right; auto|]. split; auto. intros z [<-|Hz] Hxz; [lia|auto].
    + right. intros z [<-|Hz]; auto.
  - left. destruct (IH x) as [(y & Y1 & Y2 & Y3)|H].
    + destruct (Z_le_gt_dec a y).
      * exists a. split; [left; auto|]. split; auto. intros z [<-|Hz] Hxz; [lia|]. specialize (Y3 z Hz Hxz). lia.
      * exists y. split; [right; auto|]. split; auto. intros z [<-|Hz] Hxz; [lia|auto].
    + exists a. split; [left; auto|]. split; auto. intros z [<-|Hz] Hxz; [lia|]. specialize (H z Hz). lia.
Qed.
Lemma filter_none : forall A (p : A -> bool) l, (forall x, In x l -> p x = false) -> filter p l = [].
Proof. induction l as [|x l IH]; intros H; auto. cbn. rewrite H by (left; auto). apply IH. intros; apply H; right; auto. Qed.

Definition alive_at (s : list samp) (x : Z) : nat :=
  length (filter (fun p => andb (s_birth p <? x) (x <=? s_logl p)) s).

Lemma live_points : forall E init s r labs tmm x, well_formed init (points s) -> NoDup (map s_logl s) ->
    processed (sort_samps E s) r -> complete_run r labs tmm -> init < x ->
    live_at tmm x = alive_at s x.
Proof.
  intros E init s r labs tmm x Hwf Hnd Hp Hc Hx.
  destruct (nlive_distinct E init s r Hwf Hnd Hp) as (N1 & N2 & N3).
  destruct Hc as (Hcon & C2 & C3 & C4 & C5).
  assert (Hperm : Permutation (logl r) (map s_logl s)).
  { destruct Hp as (P1 & _). rewrite P1. apply Permutation_map, sort_samps_perm. }
  assert (Hin : forall y, In y (logl r) <-> In y (map s_logl s)).
  { intros y. split; apply Permutation_in; [auto|symmetry; auto]. }
  destruct (next_point (logl r) x) as [(y & Y1 & Y2 & Y3)|H].
  - transitivity (live_at tmm y).
    + unfold live_at. f_equal. apply filter_ext_in. intros (m & e) Hm. unfold covers. cbn [fst snd].
      pose proof (run_ends _ _ _ _ _ Hcon Hm) as He. f_equal.
      * destruct m as [|m]; cbn; auto. specialize (C4 _ _ Hm).
        destruct (Z.ltb_spec m x), (Z.ltb_spec m y); auto; try lia. specialize (Y3 m C4). lia.
      * destruct (Z.leb_spec x e), (Z.leb_spec y e); auto; try lia. specialize (Y3 e He). lia.
    + destruct (In_nth _ _ 0 Y1) as (i & Hi & Hy). apply Nat2Z.inj. rewrite <- Hy, <- C5 by auto.
      rewrite N3 by lia. f_equal. unfold alive_at. f_equal. apply filter_ext_in. intros p Hps. rewrite Hy.
      destruct Hwf as (_ & Hwf). destruct (Hwf (s_birth p) (s_logl p)) as (W1 & W2 & W3); [apply in_map_iff; exists p; auto|].
      f_equal.
      * destruct (Z.ltb_spec (s_birth p) x), (Z.ltb_spec (s_birth p) y); auto; try lia. exfalso.
        destruct W3 as [Hbi|(b' & Hb)]; [lia|]. assert (In (s_birth p) (logl r)); [|specialize (Y3 _ H1); lia].
        apply Hin. apply in_map_iff in Hb as (q & Hq & Hqs). injection Hq as _ Hq. rewrite <- Hq. apply in_map. auto.
      * assert (In (s_logl p) (logl r)) by (apply Hin, in_map; auto).
        destruct (Z.leb_spec x (s_logl p)), (Z.leb_spec y (s_logl p)); auto; try lia. specialize (Y3 _ H). lia.
  - unfold live_at, alive_at. rewrite !filter_none; auto.
    + intros p Hps. assert (Hl : In (s_logl p) (logl r)) by (apply Hin, in_map; auto). specialize (H _ Hl).
      rewrite Bool.andb_false_iff. right. apply Z.leb_gt. auto.
    + intros (m & e) Hm. pose proof (run_ends _ _ _ _ _ Hcon Hm) as He. specialize (H _ He). unfold covers. cbn [fst snd].
      rewrite Bool.andb_false_iff. right. apply Z.leb_gt. auto.
Qed.

Lemma well_formed_concat : forall init ss, ss <> [] -> (forall s, In s ss -> well_formed init (points s)) ->
    well_formed init (points (concat ss)).
Proof.
  intros init ss Hne H. assert (Hin : forall p, In p (points (concat ss)) <-> exists s, In s ss /\ In p (points s)).
  { intros p. unfold points. rewrite concat_map, in_concat. split.
    - intros (l & Hl & Hp). apply in_map_iff in Hl as (s & <- & Hs). eauto.
    - intros (s & Hs & Hp). eexists. split; [|exact Hp]. apply (in_map (map _)). auto. }
  split.
  - destruct ss as [|s ss]; [congruence|]. destruct (H s (or_introl eq_refl)) as (Hn & _).
    unfold points in *. cbn [concat]. rewrite map_app. destruct (map _ s); [congruence|discriminate].
  - intros b l Hb. apply Hin in Hb as (s & Hs & Hb). destruct (H s Hs) as (_ & Hw). destruct (Hw b l Hb) as (W1 & W2 & W3).
    split; auto. split; auto. destruct W3 as [->|(b' & Hb')]; auto. right. exists b'. apply Hin. eauto.
Qed.

Definition item (p : samp) : Z * list Z := (s_logl p, s_theta p).
Lemma combine_item : forall s, combine (map s_logl s) (map s_theta s) = map item s.
Proof. induction s; auto. cbn. f_equal; auto. Qed.
Lemma combine_drop : forall t (l : list Z) (k : list Z) (th : list (list Z)), length k = length l -> length th = length l ->
    map (fun '(l, (_, th)) => (l, th)) (map (fun '(l, (k, th)) => (l, (Z.of_nat t + k, th))) (combine l (combine k th))) = combine l th.
Proof.
  intros t. induction l as [|x l IH]; intros [|y k] [|z th] H1 H2; auto; try discriminate. cbn. f_equal. apply IH; auto.
Qed.
Definition drop_label (p : Z * (Z * list Z)) : Z * list Z := let '(l, (_, th)) := p in (l, th).
Definition items_of (x : run * list Z * list (ext * Z)) : list (Z * list Z) := let '(r, _, _) := x in combine (logl r) (theta r).
Lemma merged_items : forall ts t,
    (forall r lb tmm, In (r, lb, tmm) ts -> length lb = length (logl r) /\ length (theta r) = length (logl r)) ->
    map drop_label (merged t ts) = flat_map items_of ts.
Proof.
  induction ts as [|x ts IH]; intros t H; auto. destruct x as ((r, lb), tmm). cbn [merged flat_map items_of].
  rewrite map_app, IH by (intros; eapply H; right; eauto). f_equal.
  destruct (H r lb tmm (or_introl eq_refl)). apply (combine_drop t); auto.
Qed.
Lemma pairs_sorted_eq : forall (a b : list (Z * list Z)), NoDup (map fst a) -> Permutation a b ->
    StronglySorted Z.le (map fst a) -> StronglySorted Z.le (map fst b) -> a = b.
Proof.
  intros a b Hn Hp Ha Hb. rewrite ssorted_map in Ha, Hb.
  apply (ssorted_perm_eq _ (fun x y => fst x <= fst y)); auto.
  intros x y Hx Hy H1 H2. destruct (In_nth _ _ (0, []) Hx) as (i & Hi & <-). destruct (In_nth _ _ (0, []) Hy) as (j & Hj & <-).
  f_equal. apply (proj1 (NoDup_nth (map fst a) 0) Hn); try (rewrite map_length; auto).
  rewrite !(map_nth_in _ _ _ 0 (0, [])) by auto. lia.
Qed.

Theorem C92_combine_processed : forall E init ss rs da dw (w : world E),
    (2 <= length ss)%nat ->
    (forall s, In s ss -> well_formed init (births_deaths s)) -> NoDup (map s_logl (concat ss)) ->
    (forall s m, In s ss -> (1 < occurs m (map s_birth s))%nat ->
                 m = init \/ exists x, In x (map s_logl (concat ss)) /\ x < m) ->
    Forall2 (fun s r => exists w1 w2 : world E, process_samples_array s da dw w1 = (Ok r, w2)) ss rs ->
    exists r r' w', combine_ns_runs rs da dw w = (Ok r, w) /\
      process_samples_array (concat ss) da dw w = (Ok r', w') /\
      logl r = logl r' /\ theta r = theta r' /\ nlive_array r = nlive_array r'.
Proof.
  intros E init ss rs da dw w H2 Hwf Hnd Hlow HF.
  assert (Hne : ss <> []) by (destruct ss; [cbn in H2; lia|discriminate]).
  pose proof (well_formed_concat init ss Hne Hwf) as Hwfc.
  destruct (C04_processing E init (concat ss) da dw w Hwfc (fun _ => Hnd)) as (r' & w' & HP' & _).
  pose proof (process_returns E init (concat ss) da dw w r' w' Hwfc HP') as Hp'.
  destruct (nlive_distinct E init (concat ss) r' Hwfc Hnd Hp') as (N1 & N2 & N3).
  assert (HT : exists ts : list (run * list Z * list (ext * Z)), map (fun '(r, _, _) => r) ts = rs /\
            Forall2 (fun s '(r, labs, tmm) => complete_run r labs tmm /\ settings r = None /\
                        processed (sort_samps E s) r /\ Permutation (combine (logl r) (theta r)) (map item s) /\
                        Permutation (logl r) (map s_logl s) /\
                        forall m e, In (Fin m, e) tmm -> (1 < occurs m (map s_birth s))%nat) ss ts).
  { clear - Hwf Hnd HF. induction HF as [|s r ss rs (w1 & w2 & Hs) HF IH]; [exists []; split; constructor|].
    cbn [concat] in Hnd. rewrite map_app in Hnd.
    assert (Hs1 : NoDup (map s_logl s)) by apply (nodup_parts _ _ Hnd).
    assert (Hs2 : NoDup (map s_logl (concat ss))) by apply (nodup_parts _ _ Hnd).
    destruct IH as (ts & T1 & T2); auto; [intros; apply Hwf; right; auto|].
    pose proof (Hwf s (or_introl eq_refl)) as Hw. pose proof (process_returns E init s da dw w1 r w2 Hw Hs) as Hp.
    destruct (processed_complete E init s r Hw Hs1 Hp) as (labs & tmm & Hc & Ho & Hse & Hb).
    exists ((r, labs, tmm) :: ts). split; [cbn; f_equal; auto|]. constructor; auto.
    split; auto. split; auto. split; auto. destruct Hp as (P1 & P2 & _). rewrite P1, P2, combine_item.
    split; [apply Permutation_map, sort_samps_perm|]. split; [apply Permutation_map, sort_samps_perm|auto]. }
  destruct HT as (ts & <- & HT).
  assert (Hlen : length ts = length ss) by (clear - HT; induction HT; cbn; auto).
  assert (Hlg : Permutation (flat_map (fun '(r, _, _) => logl r) ts) (map s_logl (concat ss))).
  { clear - HT. induction HT as [|s ((r, labs), tmm) ss ts (_ & _ & _ & _ & H & _) HT IH]; auto.
    cbn [flat_map concat]. rewrite map_app. apply Permutation_app; auto. }
  assert (Hit : Permutation (flat_map (fun '(r, _, _) => combine (logl r) (theta r)) ts) (map item (concat ss))).
  { clear - HT. induction HT as [|s ((r, labs), tmm) ss ts (_ & _ & _ & H & _ & _) HT IH]; auto.
    cbn [flat_map concat]. rewrite map_app. apply Permutation_app; auto. }
  assert (Hget : forall r labs tmm, In (r, labs, tmm) ts -> exists s, In s ss /\ complete_run r labs tmm /\ settings r = None /\
            Permutation (logl r) (map s_logl s) /\
            (forall m e, In (Fin m, e) tmm -> (1 < occurs m (map s_birth s))%nat)).
  { clear - HT. induction HT as [|s ((r, labs), tmm) ss ts (A & B & _ & _ & C & D) HT IH]; intros r1 l1 t1 Hin; [destruct Hin|].
    destruct Hin as [Hin|Hin]; [injection Hin as <- <- <-; exists s; split; [left; auto|auto]|].
    destruct (IH _ _ _ Hin) as (s1 & Hs1 & Q). exists s1. split; [right; auto|auto]. }
  assert (Hinit : forall x, In x (map s_logl (concat ss)) -> init < x).
  { intros x Hx. apply in_map_iff in Hx as (p & <- & Hp). destruct Hwfc as (_ & Hw).
    apply (Hw (s_birth p) (s_logl p)). apply in_map_iff. exists p. auto. }
  assert (Hnd' : NoDup (flat_map (fun '(r, _, _) => logl r) ts)) by (eapply Permutation_NoDup; [symmetry; exact Hlg|auto]).
  destruct (C20_combine_ns_runs E ts da dw w) as (r & labs & R1 & R2 & R3 & R4); auto.
  { lia. }
  { intros r labs tmm Hin. destruct (Hget _ _ _ Hin) as (s & _ & A & B & _). auto. }
  { intros m e Hin. apply in_flat_map in Hin as (((r, labs), tmm) & Hin & Hm). cbn [snd] in Hm.
    destruct (Hget _ _ _ Hin) as (s & Hs & (_ & _ & _ & Hc4 & _) & _ & Hpl & D).
    destruct (Hlow s m Hs (D _ _ Hm)) as [->|(x & X1 & X2)].
    - exfalso. specialize (Hc4 _ _ Hm). apply (Permutation_in _ Hpl) in Hc4.
      assert (In init (map s_logl (concat ss))); [|apply Hinit in H; lia].
      rewrite concat_map, in_concat. exists (map s_logl s). split; auto. apply in_map. auto.
    - exists x. split; auto. eapply Permutation_in; [symmetry; exact Hlg|auto]. }
  exists r, r', w'. split; auto. split; auto.
  assert (Hitems : combine (logl r) (theta r) = combine (logl r') (theta r')).
  { pose proof R2 as ((_ & _ & V1 & V2 & V3 & V4 & _) & C2 & _).
    assert (Hpm : Permutation (combine (logl r) (theta r)) (map item (concat ss))).
    { rewrite <- (combine_drop 0 (logl r) labs (theta r)) by lia. rewrite map_map.
      rewrite (map_ext _ (fun '(l, (_, th)) => (l, th))) by (intros (? & ? & ?); auto).
      etransitivity; [apply Permutation_map, R4|]. rewrite <- Hit. apply Permutation_refl'.
      apply (merged_items ts 0). intros r1 lb tmm Hin. destruct (Hget _ _ _ Hin) as (s & _ & ((_ & _ & U1 & U2 & U3 & _) & _) & _).
      auto. }
    destruct Hp' as (P1 & P2 & _).
    assert (Hpm' : combine (logl r') (theta r') = map item (sort_samps E (concat ss))) by (rewrite P1, P2; apply combine_item).
    assert (Hf : map fst (combine (logl r) (theta r)) = logl r).
    { clear - V3. revert V3. generalize (theta r) as th. induction (logl r) as [|x l IH]; intros [|y th] H; auto; try discriminate. cbn. f_equal. auto. }
    apply pairs_sorted_eq.
    - rewrite Hf. auto.
    - rewrite Hpm, Hpm'. apply Permutation_map. symmetry. apply sort_samps_perm.
    - rewrite Hf. auto.
    - rewrite Hpm', map_map. cbn [item fst]. apply sort_samps_sorted. }
  assert (Lr : length (theta r) = length (logl r)) by (destruct R2 as ((_ & _ & V1 & V2 & V3 & _) & _); auto).
  assert (Lr' : length (theta r') = length (logl r')) by (destruct Hp' as (P1 & P2 & _); rewrite P1, P2, !map_length; auto).
  assert (El : logl r = logl r' /\ theta r = theta r').
  { revert Hitems Lr Lr'. generalize (logl r) (theta r) (logl r') (theta r'). clear.
    induction l as [|x l IH]; intros [|t th] [|x' l'] [|t' th'] H H1 H2; try discriminate; auto.
    cbn in H. injection H as -> -> H. destruct (IH th l' th' H) as (-> & ->); auto. }
  destruct El as (El & Et). split; auto. split; auto.
  destruct R2 as ((_ & _ & V1 & _) & _ & _ & _ & C5).
  apply (nth_ext _ _ 0 0); [rewrite N1, V1, El; auto|].
  intros i Hi. rewrite V1 in Hi. rewrite C5 by auto. rewrite N3 by (rewrite <- N2, <- El; auto). rewrite <- El. f_equal.
  set (x := nth i (logl r) 0). change (live_at (flat_map snd ts) x = alive_at (concat ss) x).
  assert (Hx : init < x).
  { apply Hinit. assert (Hxi : In x (logl r')) by (rewrite <- El; apply nth_In; auto). destruct Hp' as (P1 & _). rewrite P1 in Hxi.
    eapply Permutation_in; [apply Permutation_map, sort_samps_perm|exact Hxi]. }
  clearbody x. clear - HT Hwf Hnd Hx.
  induction HT as [|s ((r, lb), tmm) ss ts (A & B & C & _) HT IH]; auto.
  cbn [concat] in Hnd. rewrite map_app in Hnd.
  assert (Hs1 : NoDup (map s_logl s)) by apply (nodup_parts _ _ Hnd).
  assert (Hs2 : NoDup (map s_logl (concat ss))) by apply (nodup_parts _ _ Hnd).
  cbn [flat_map concat snd]. unfold live_at, alive_at in *. rewrite !filter_app, !app_length.
  rewrite IH by (auto; intros; apply Hwf; right; auto). f_equal.
  apply (live_points E init s r lb tmm x); auto. apply Hwf. left; auto.
Qed.
Print Assumptions C92_combine_processed.

Definition samples_more : list samp := [mkSamp [40] 4 (-9); mkSamp [10] 1 (-9); mkSamp [90] 9 4].
Example C92_example :
    (forall s, In s [samples_dyn; samples_more] -> well_formed (-9) (births_deaths s)) /\
    NoDup (map s_logl (concat [samples_dyn; samples_more])) /\
    (forall s m, In s [samples_dyn; samples_more] -> (1 < occurs m (map s_birth s))%nat ->
                 m = -9 \/ exists x, In x (map s_logl (concat [samples_dyn; samples_more])) /\ x < m).
Proof.
  split; [intros s [<-|[<-|[]]]; wf|]. split; [repeat constructor; simpl; lia|].
  intros s m [<-|[<-|[]]]; unfold occurs, samples_dyn, samples_more; cbn [map s_birth count_occ]; intros H.
  - destruct (Z.eq_dec 3 m) as [<-|]; [right; exists 2; split; [simpl; tauto|lia]|].
    destruct (Z.eq_dec (-9) m) as [<-|]; [auto|]. lia.
  - destruct (Z.eq_dec 4 m) as [<-|]; [right; exists 2; split; [simpl; tauto|lia]|].
    destruct (Z.eq_dec (-9) m) as [<-|]; [auto|]. lia.
Qed.
Example C92_example_result : forall w : world (script_env []),
    let get s := match process_samples_array s true false w with (Ok r, _) => r | _ => run_other end in
    match combine_ns_runs [get samples_dyn; get samples_more] true false w with
    | (Ok r, _) => (logl r, nlive_array r) = ([1; 2; 3; 4; 5; 6; 7; 9], [5; 4; 3; 4; 4; 3; 2; 1])
    | _ => False
    end.
Proof. intros [g ws]. vm_compute. reflexivity. Qed.
