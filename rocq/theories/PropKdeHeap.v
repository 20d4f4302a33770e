(** C105: memory changed by weighted_1d_gaussian_kde and alternate_helper. *)
From Coq Require Import Lra.
From Verif Require Import Base ModelRun ModelReal ModelStats ModelPlots ModelKdeHeap SpecReal ProofBase ProofReal ProofStats PropKde PropKde2.
Local Open Scope R_scope.

(** An array within the memory which shows no position twice. *)
Definition valid (m : memory) (a : array) : Prop :=
  (a_block a < length m)%nat /\ NoDup (a_at a) /\ forall i, In i (a_at a) -> (i < length (nth (a_block a) m []))%nat.
Definition shows (a : array) (b i : nat) : Prop := b = a_block a /\ In i (a_at a).
Definition separate (a b : array) : Prop := forall k i, shows a k i -> ~ shows b k i.

Lemma nth_upd : forall A (l : list A) i j x d, nth j (upd i x l) d = if ((j =? i) && (i <? length l))%nat then x else nth j l d.
Proof.
  induction l as [|y l IH]; intros i j x d.
  - cbn [length]. replace (i <? 0)%nat with false by (symmetry; apply Nat.ltb_ge; lia). rewrite andb_false_r. destruct i; auto.
  - destruct i as [|i], j as [|j]; auto. cbn [upd nth]. rewrite IH. reflexivity.
Qed.
Lemma length_upd : forall A (l : list A) i x, length (upd i x l) = length l.
Proof. induction l as [|y l IH]; intros [|i] x; cbn; auto. Qed.
Lemma at_write1 : forall m b i v b' i', (b < length m)%nat -> (i < length (nth b m []))%nat ->
    at_ (write1 m b i v) b' i' = if ((b' =? b) && (i' =? i))%nat then v else at_ m b' i'.
Proof.
  intros m b i v b' i' Hb Hi. unfold at_, write1. rewrite nth_upd. rewrite (proj2 (Nat.ltb_lt _ _) Hb), andb_true_r.
  destruct (Nat.eqb_spec b' b) as [->|]; cbn [andb]; auto. rewrite nth_upd, (proj2 (Nat.ltb_lt _ _) Hi), andb_true_r. auto.
Qed.
Lemma shape_write1 : forall m b i v, length (write1 m b i v) = length m /\
    forall b', length (nth b' (write1 m b i v) []) = length (nth b' m []).
Proof.
  intros m b i v. unfold write1. split; [apply length_upd|]. intros b'. rewrite nth_upd.
  destruct (Nat.eqb_spec b' b) as [->|]; auto. destruct (_ <? _)%nat; auto. cbn [andb]. apply length_upd.
Qed.
Lemma write_spec : forall b ps vals m, length vals = length ps -> NoDup ps -> (b < length m)%nat ->
    (forall i, In i ps -> (i < length (nth b m []))%nat) ->
    let m' := write m (mkArray b ps) vals in
    map (at_ m' b) ps = vals /\ (forall b' i', ~ (b' = b /\ In i' ps) -> at_ m' b' i' = at_ m b' i') /\
    length m' = length m /\ forall b', length (nth b' m' []) = length (nth b' m []).
Proof.
  intros b ps. induction ps as [|p ps IH]; intros [|v vals] m Hl Hn Hb Hi; cbn [length] in Hl; try discriminate.
  - cbn. auto.
  - inversion Hn; subst. destruct (shape_write1 m b p v) as [S1 S2].
    destruct (IH vals (write1 m b p v)) as (A & B & C & D); auto; try lia.
    { intros i Hin. rewrite S2. apply Hi. right. auto. }
    change (write m (mkArray b (p :: ps)) (v :: vals)) with (write (write1 m b p v) (mkArray b ps) vals).
    cbv zeta in *. split; [|split; [|split]].
    + cbn [map]. rewrite A. f_equal. rewrite B by (intros [_ ?]; auto). rewrite at_write1; auto; [|apply Hi; left; auto].
      rewrite !Nat.eqb_refl. auto.
    + intros b' i' Hno. rewrite B by (intros [? ?]; apply Hno; split; [auto|right; auto]). rewrite at_write1; auto; [|apply Hi; left; auto].
      destruct (Nat.eqb_spec b' b) as [->|]; auto. destruct (Nat.eqb_spec i' p) as [->|]; auto. exfalso. apply Hno. split; [auto|left; auto].
    + lia.
    + intros b'. rewrite D. auto.
Qed.
Lemma write_read : forall m a vals, valid m a -> length vals = length (a_at a) ->
    read (write m a vals) a = vals /\ (forall b i, ~ shows a b i -> at_ (write m a vals) b i = at_ m b i) /\
    length (write m a vals) = length m /\ forall b, length (nth b (write m a vals) []) = length (nth b m []).
Proof.
  intros m [b ps] vals (H1 & H2 & H3) Hl. cbn in *. destruct (write_spec b ps vals m) as (A & B & C & D); auto.
Qed.
Lemma read_separate : forall m m' a c, (forall b i, ~ shows a b i -> at_ m' b i = at_ m b i) -> separate a c -> read m' c = read m c.
Proof.
  intros m m' a c H Hs. unfold read. apply map_ext_in. intros i Hi. apply H. intros Ha. apply (Hs _ _ Ha). split; auto.
Qed.
Lemma all_finite_some : forall l, all_finite (map Some l) = Some l.
Proof. induction l as [|x l IH]; auto. cbn. rewrite IH. auto. Qed.
Lemma rest_is : forall x s w, length s = length w ->
    Ok (kde_rest (map Some x) (map Some s) (map (fun a => fdiv a (fsum (map Some w))) (map Some w))) = weighted_1d_gaussian_kde x s w.
Proof.
  intros x s w Hl. unfold weighted_1d_gaussian_kde. rewrite Hl, Nat.eqb_refl. cbn [assertb rbind]. unfold kde_rest, fsum.
  rewrite !all_finite_some. cbn [option_map]. rewrite map_map. cbn [fdiv]. unfold nsamp_eff.
  assert (Hnan : forall (A : Type) (l : list A), match map Some l with [] => @Some R 0 | _ :: _ => None end = match l with [] => Some 0 | _ :: _ => None end)
    by (intros A [|]; auto).
  destruct (Req_EM_T (rsum w) 0) as [Hz|Hz].
  - destruct w as [|a w].
    + destruct s; [|discriminate]. cbn [map all_finite]. unfold entropy_size. cbn [filter existsb map]. rewrite map_map.
      destruct (Req_EM_T _ 1) as [|Hne]; auto. exfalso. apply Hne. unfold rsum. cbn. rewrite Rmult_0_r. apply exp_0.
    + cbn [map all_finite]. rewrite map_map. destruct s; [discriminate|]. reflexivity.
  - replace (map (fun a : R => Some (a / rsum w)) w) with (map Some (normalised w)) by (unfold normalised; rewrite map_map; auto).
    rewrite all_finite_some. unfold entropy_size. rewrite map_map. destruct s as [|s0 s]; cbn [map].
    + destruct (existsb _ _); auto. destruct (Req_EM_T _ 1); auto. cbv zeta. destruct (Req_EM_T _ 0); auto.
      rewrite map_map. reflexivity.
    + destruct (existsb _ _); auto. destruct (Req_EM_T _ 1); auto. cbv zeta. destruct (Req_EM_T _ 0); auto.
      rewrite map_map. reflexivity.
Qed.

(** Arrays which do not share positions with the weights: the result is that of
    the values, the weights are normalised and nothing else is changed. *)
Theorem C105_kde : forall m xs samples weights x s w, valid m weights -> separate weights xs -> separate weights samples ->
    read m xs = map Some x -> read m samples = map Some s -> read m weights = map Some w -> length s = length w ->
    exists m', kde_mem m xs samples weights = (weighted_1d_gaussian_kde x s w, m') /\
      (sumR w <> 0 -> read m' weights = map (fun a => Some (a / sumR w)) w) /\
      (sumR w = 0 -> read m' weights = map (fun _ => None) w) /\
      (forall b i, ~ shows weights b i -> at_ m' b i = at_ m b i) /\
      length m' = length m /\ forall b, length (nth b m' []) = length (nth b m []).
Proof.
  intros m xs samples weights x s w Hv Hx Hs Ex Es Ew Hl. unfold kde_mem.
  assert (L1 : length (a_at samples) = length s) by (apply (f_equal (@length _)) in Es; unfold read in Es; rewrite !map_length in Es; auto).
  assert (L2 : length (a_at weights) = length w) by (apply (f_equal (@length _)) in Ew; unfold read in Ew; rewrite !map_length in Ew; auto).
  rewrite L1, L2, Hl, Nat.eqb_refl. set (vals := map _ (read m weights)).
  assert (Lv : length vals = length (a_at weights)) by (unfold vals, read; rewrite !map_length; auto).
  destruct (write_read m weights vals Hv Lv) as (A & B & C & D). eexists. split; [|split; [|split; [|split; [|split]]]]; eauto.
  - rewrite A, (read_separate m _ weights xs B Hx), (read_separate m _ weights samples B Hs), Ex, Es. unfold vals. rewrite Ew.
    f_equal. apply rest_is. auto.
  - intros Hz. rewrite A. unfold vals. rewrite Ew, map_map. apply map_ext. intros a. cbn [fdiv]. unfold fsum. rewrite all_finite_some.
    cbn [option_map]. rewrite rsum_sumR. destruct (Req_EM_T (sumR w) 0); [contradiction|auto].
  - intros Hz. rewrite A. unfold vals. rewrite Ew, map_map. apply map_ext. intros a. cbn [fdiv]. unfold fsum. rewrite all_finite_some.
    cbn [option_map]. rewrite rsum_sumR. destruct (Req_EM_T (sumR w) 0); [auto|contradiction].
Qed.
Print Assumptions C105_kde.

(** A second call gives the same and changes nothing. *)
Theorem C105_again : forall m xs samples weights x s w, valid m weights -> separate weights xs -> separate weights samples ->
    read m xs = map Some x -> read m samples = map Some s -> read m weights = map Some w -> length s = length w -> sumR w <> 0 ->
    let m1 := snd (kde_mem m xs samples weights) in
    let m2 := snd (kde_mem m1 xs samples weights) in
    fst (kde_mem m1 xs samples weights) = fst (kde_mem m xs samples weights) /\ forall b i, at_ m2 b i = at_ m1 b i.
Proof.
  intros m xs samples weights x s w Hv Hx Hs Ex Es Ew Hl Hz.
  destruct (C105_kde m xs samples weights x s w) as (m1 & K1 & R1 & _ & O1 & N1 & D1); auto. rewrite K1. cbn [fst snd].
  assert (Hv1 : valid m1 weights).
  { destruct Hv as (V1 & V2 & V3). split; [lia|]. split; auto. intros i Hi. rewrite D1. auto. }
  specialize (R1 Hz). set (w1 := map (fun a => a / sumR w) w). assert (Ew1 : read m1 weights = map Some w1) by (rewrite R1; unfold w1; rewrite map_map; auto).
  assert (S1 : sumR w1 = 1).
  { unfold w1. rewrite <- rsum_sumR. assert (Hr : rsum w <> 0) by (rewrite rsum_sumR; auto).
    pose proof (rsum_normalised w Hr) as E. unfold normalised in E. rewrite (rsum_sumR w) in E. exact E. }
  destruct (C105_kde m1 xs samples weights x s w1) as (m2 & K2 & R2 & _ & O2 & _ & _); auto.
  - rewrite (read_separate m m1 weights xs); auto.
  - rewrite (read_separate m m1 weights samples); auto.
  - unfold w1. rewrite map_length. auto.
  - rewrite K2. cbn [fst snd]. split.
    + replace w1 with (map (Rmult (/ sumR w)) w) by (unfold w1; apply map_ext; intros a; unfold Rdiv; lra).
      apply C54_weight_scale. apply Rinv_neq_0_compat. auto.
    + assert (R2' : read m2 weights = read m1 weights).
      { rewrite R2 by (rewrite S1; lra). rewrite Ew1. apply map_ext. intros a. rewrite S1. f_equal. field. }
      intros b i. destruct (Nat.eq_dec b (a_block weights)) as [->|Hb]; [|apply O2; intros [? ?]; auto].
      destruct (in_dec Nat.eq_dec i (a_at weights)) as [Hi|Hi]; [|apply O2; intros [? ?]; auto].
      unfold read in R2'. apply In_nth_error in Hi as (k & Hk).
      apply (f_equal (fun l => nth_error l k)) in R2'. rewrite !nth_error_map, Hk in R2'. cbn in R2'. congruence.
Qed.
Print Assumptions C105_again.

(** Arrays of different length: AssertionError before anything is changed. *)
Theorem C105_errors : forall m xs samples weights, length (a_at samples) <> length (a_at weights) ->
    kde_mem m xs samples weights = (Raise AssertionError, m).
Proof. intros m xs samples weights H. unfold kde_mem. rewrite (proj2 (Nat.eqb_neq _ _) H). auto. Qed.
Print Assumptions C105_errors.

(** The samples and the weights are one array: the samples are divided by their
    sum too. *)
Theorem C105_shared : forall m xs a x w, valid m a -> separate a xs -> read m xs = map Some x -> read m a = map Some w -> sumR w <> 0 ->
    fst (kde_mem m xs a a) = weighted_1d_gaussian_kde x (map (fun v => v / sumR w) w) w.
Proof.
  intros m xs a x w Hv Hx Ex Ew Hz. unfold kde_mem. rewrite Nat.eqb_refl. cbn [fst]. set (vals := map _ (read m a)).
  assert (Lv : length vals = length (a_at a)) by (unfold vals, read; rewrite !map_length; auto).
  destruct (write_read m a vals Hv Lv) as (A & B & _). rewrite A, (read_separate m _ a xs B Hx), Ex.
  assert (Evals : vals = map Some (map (fun v => v / sumR w) w)).
  { unfold vals. rewrite Ew, !map_map. apply map_ext. intros v. cbn [fdiv]. unfold fsum. rewrite all_finite_some. cbn [option_map].
    rewrite rsum_sumR. destruct (Req_EM_T (sumR w) 0); [contradiction|auto]. }
  rewrite Evals at 1. unfold vals. rewrite Ew. apply rest_is. rewrite map_length. auto.
Qed.
Print Assumptions C105_shared.
(** So the result is not a function of the values of the arrays. *)
Theorem C105_values_refuted : exists m xs samples weights, valid m weights /\ separate weights xs /\
    read m samples = read m weights /\
    fst (kde_mem m xs weights weights) <> fst (kde_mem m xs samples weights).
Proof.
  pose (m := [[Some 0]; [Some 1; Some 3]; [Some 1; Some 3]] : memory).
  pose (xs := mkArray 0 [0%nat]). pose (sa := mkArray 1 [0%nat; 1%nat]). pose (we := mkArray 2 [0%nat; 1%nat]).
  assert (Hv : valid m we).
  { split; [cbn; lia|]. split; [repeat constructor; cbn; intuition lia|]. cbn. intuition lia. }
  assert (Hx : separate we xs) by (intros k i [-> _] [E _]; discriminate).
  assert (Hs : separate we sa) by (intros k i [-> _] [E _]; discriminate).
  assert (Hsum : sumR [1; 3] = 4) by (cbn; lra).
  exists m, xs, sa, we. split; auto. split; auto. split; auto.
  rewrite (C105_shared m xs we [0] [1; 3]); auto; [|lra].
  destruct (C105_kde m xs sa we [0] [1; 3] [1; 3]) as (m' & K & _); auto. rewrite K. cbn [fst].
  rewrite Hsum. replace (map (fun v => v / 4) [1; 3]) with (map (fun s => 0 + / 4 * s) [1; 3]) by (apply map_ext; intros; lra).
  replace [0] with (map (fun x => 0 + / 4 * x) [0]) at 1 by (cbn; f_equal; lra).
  rewrite C54_affine by lra.
  destruct (C54_kde [0] [1; 3] [1; 3] 0 1) as (n & sig & _ & _ & _ & _ & E & Hp); auto; try (cbn; lra); try (cbn; lia).
  { intros a [<-|[<-|[]]]; lra. }
  rewrite E. cbn [rbind map]. specialize (Hp 0). set (v := average _ _ _) in *. intros H. injection H as H. clearbody v.
  unfold Rdiv in H. rewrite Rinv_inv in H. lra.
Qed.
Print Assumptions C105_values_refuted.

(** ** alternate_helper *)
Lemma map_evens : forall A B (f : A -> B) l, map f (evens l) = evens (map f l).
Proof.
  intros A B f. fix IH 1. intros [|a [|b l]]; cbn [evens map]; auto. f_equal. apply IH.
Qed.
Lemma map_odds : forall A B (f : A -> B) l, map f (odds l) = odds (map f l).
Proof. intros A B f [|a l]; auto. unfold odds. cbn [tl map]. apply map_evens. Qed.
Lemma evens_in : forall A (l : list A) x, In x (evens l) -> In x l.
Proof. intros A. fix IH 1. intros [|a [|b l]] x; cbn [evens In]; [tauto|tauto|]. intros [->|H]; [tauto|]. right. right. apply IH. exact H. Qed.
Lemma evens_nodup : forall A (l : list A), NoDup l -> NoDup (evens l).
Proof.
  intros A. fix IH 1. intros [|a [|b l]] H; cbn [evens]; auto. inversion H; subst. inversion H3; subst. constructor; auto.
  intros Hi. apply H2. right. apply evens_in. auto.
Qed.
Lemma odds_in : forall A (l : list A) x, In x (odds l) -> In x l.
Proof. intros A [|a l] x; cbn; auto. intros H. right. apply evens_in. auto. Qed.
Lemma odds_nodup : forall A (l : list A), NoDup l -> NoDup (odds l).
Proof. intros A [|a l] H; unfold odds; cbn [tl]; [constructor|]. inversion H; subst. apply evens_nodup. auto. Qed.
Lemma odds_cons2 : forall A (a b : A) l, odds (a :: b :: l) = b :: odds l.
Proof. intros A a b [|c l]; reflexivity. Qed.
Lemma evens_odds : forall A (l : list A), NoDup l -> forall x, In x (evens l) -> ~ In x (odds l).
Proof.
  intros A. fix IH 1. intros [|a [|b l]] H x Hx; cbn [evens] in Hx; [destruct Hx|intros []|]. rewrite odds_cons2. inversion H; subst. inversion H3; subst.
  destruct Hx as [->|Hx].
  - intros [->|Hi]; [apply H2; left; auto|]. apply H2. right. apply odds_in. auto.
  - intros [->|Hi]; [apply H4; apply evens_in; auto|]. eapply IH; eauto.
Qed.
Lemma read_all : forall A (l : list A) d, map (fun i => nth i l d) (seq 0 (length l)) = l.
Proof.
  intros A l d. induction l as [|a l IH]; auto. cbn [length seq map nth]. f_equal. rewrite <- seq_shift, map_map. exact IH.
Qed.

(** It works on a copy: the result is that of the values, and all memory there
    was before the call is unchanged. *)
Theorem C105_alternate : forall m xs alt x, (a_block xs < length m)%nat -> read m xs = map Some x ->
    exists m', alternate_mem m xs alt = (alternate_helper weighted_1d_gaussian_kde x (read m alt), m') /\
      forall b, (b < length m)%nat -> nth b m' [] = nth b m [].
Proof.
  intros m xs alt x Hb Ex. unfold alternate_mem, alloc. set (s := finite_part (read m alt)). set (m1 := m ++ [map Some s]).
  cbn [a_block a_at]. set (ps := seq 0 (length (map Some s))).
  assert (Hn : NoDup ps) by apply seq_NoDup.
  assert (Hblk : nth (length m) m1 [] = map Some s) by (unfold m1; rewrite app_nth2, Nat.sub_diag by lia; auto).
  assert (Hat : map (at_ m1 (length m)) ps = map Some s) by (unfold at_, ps; rewrite Hblk; apply read_all).
  assert (Hx1 : read m1 xs = map Some x).
  { rewrite <- Ex. unfold read. apply map_ext. intros i. unfold at_, m1. rewrite app_nth1 by auto. auto. }
  assert (Hse : read m1 (mkArray (length m) (evens ps)) = map Some (evens s)) by (unfold read; cbn [a_block a_at]; rewrite map_evens, Hat, <- map_evens; auto).
  assert (Hso : read m1 (mkArray (length m) (odds ps)) = map Some (odds s)) by (unfold read; cbn [a_block a_at]; rewrite map_odds, Hat, <- map_odds; auto).
  unfold alternate_helper. fold s.
  assert (HE : exists m', kde_mem m1 xs (mkArray (length m) (evens ps)) (mkArray (length m) (odds ps)) =
                          (weighted_1d_gaussian_kde x (evens s) (odds s), m') /\
                          (forall b i, b <> length m -> at_ m' b i = at_ m1 b i) /\ length m' = length m1 /\
                          forall b, length (nth b m' []) = length (nth b m1 [])).
  { destruct (Nat.eq_dec (length (evens s)) (length (odds s))) as [El|El].
    - destruct (C105_kde m1 xs (mkArray (length m) (evens ps)) (mkArray (length m) (odds ps)) x (evens s) (odds s)) as (m' & K & _ & _ & O & N & D); auto.
      + split; [unfold m1; cbn [a_block]; rewrite app_length; cbn; lia|]. split; [apply odds_nodup; auto|].
        intros i Hi. cbn [a_block a_at] in *. rewrite Hblk. apply odds_in in Hi. unfold ps in Hi. apply in_seq in Hi. lia.
      + intros k i [-> _] [E _]. cbn [a_block] in E. lia.
      + intros k i [_ H1] [_ H2]. cbn [a_at] in *. eapply evens_odds; eauto.
      + exists m'. split; auto. split; auto. intros b i Hne. apply O. intros [E _]. cbn in E. congruence.
    - exists m1. split; auto.
      rewrite C105_errors; [rewrite (proj1 (C54_lengths x (evens s) (odds s)) El); auto|]. cbn [a_at].
      apply (f_equal (@length _)) in Hse. apply (f_equal (@length _)) in Hso. unfold read in *. cbn [a_at] in *. rewrite !map_length in Hse, Hso. lia. }
  destruct HE as (m' & -> & O & N & D). exists m'. split; auto. intros b Hlt. apply (nth_ext _ _ None None).
  - rewrite D. unfold m1. rewrite app_nth1 by auto. auto.
  - intros i _. specialize (O b i ltac:(lia)). unfold at_ in O. rewrite O. unfold m1. rewrite app_nth1 by auto. auto.
Qed.
Print Assumptions C105_alternate.

Example C105_hypotheses :
  let m := [[Some 0]; [Some 5; Some 6; None]; [Some 1; Some 3]] in
  let xs := mkArray 0 [0%nat] in let sa := mkArray 1 [0%nat; 1%nat] in let we := mkArray 2 [0%nat; 1%nat] in
  valid m we /\ separate we xs /\ separate we sa /\ read m xs = map Some [0] /\ read m sa = map Some [5; 6] /\
  read m we = map Some [1; 3] /\ sumR [1; 3] <> 0.
Proof.
  cbv zeta. split; [|split; [|split; [|split; [|split; [|split]]]]]; try reflexivity.
  - split; [cbn; lia|]. split; [repeat constructor; cbn; intuition lia|]. cbn. intuition lia.
  - intros k i [-> _] [E _]. discriminate.
  - intros k i [-> _] [E _]. discriminate.
  - cbn. lra.
Qed.
