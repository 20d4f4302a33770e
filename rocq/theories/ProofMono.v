(** Increasing functions of the log-likelihoods commute with the processing. *)
From Verif Require Import Base ModelRun ModelData ModelBoot ModelMono ProofBase ProofMonad ProofBirth
     ProofThreads2.

Section Mono.
Variable f : Z -> Z.
Hypothesis Hf : increasing f.
Variable g0 : list Z -> list Z.

Lemma mono_ltb : forall x y, (f x <? f y) = (x <? y).
Proof.
  intros. destruct (Z.ltb_spec x y) as [H|H].
  - apply Z.ltb_lt. auto.
  - apply Z.ltb_ge. destruct (Z.eq_dec x y); [subst; lia|]. pose proof (Hf y x). lia.
Qed.
Lemma mono_leb : forall x y, (f x <=? f y) = (x <=? y).
Proof. intros. rewrite !Z.leb_antisym, mono_ltb. auto. Qed.
Lemma mono_eqb : forall x y, (f x =? f y) = (x =? y).
Proof.
  intros. destruct (Z.eqb_spec x y) as [->|H]; [apply Z.eqb_refl|].
  apply Z.eqb_neq. intros He. destruct (Z.lt_total x y) as [H1|[H1|H1]]; [|auto|];
  apply Hf in H1; lia.
Qed.
Lemma mono_inj : forall x y, f x = f y -> x = y.
Proof. intros x y H. apply Z.eqb_eq. rewrite <- mono_eqb. apply Z.eqb_eq. auto. Qed.

(** ** Lists *)
Lemma mono_where_from : forall A B (g : A -> B) p l k, where_from p k (map g l) = where_from (fun x => p (g x)) k l.
Proof. induction l as [|x t IH]; simpl; intros; auto. rewrite IH. auto. Qed.
Lemma mono_where : forall A B (g : A -> B) p l, where_ p (map g l) = where_ (fun x => p (g x)) l.
Proof. intros. apply mono_where_from. Qed.
Lemma mono_where_ext : forall A (p q : A -> bool) l, (forall x, p x = q x) -> where_ p l = where_ q l.
Proof.
  intros A p q l H. unfold where_. generalize 0%nat.
  induction l as [|x t IH]; simpl; intros; auto. rewrite H, IH. auto.
Qed.
Lemma mono_where_eq : forall v l, where_ (Z.eqb (f v)) (map f l) = where_ (Z.eqb v) l.
Proof. intros. rewrite mono_where. apply mono_where_ext. intros. apply mono_eqb. Qed.
Lemma mono_countb : forall A B (g : A -> B) p q l, (forall x, p (g x) = q x) ->
    countb p (map g l) = countb q l.
Proof. induction l as [|x t IH]; simpl; intros; auto. rewrite H, IH; auto. Qed.
Lemma mono_min : forall l, l <> [] -> min_list (map f l) = f (min_list l).
Proof.
  intros [|x t]; [congruence|]. intros _. cbn [min_list map]. revert x.
  induction t as [|y t IH]; intros; auto. simpl. rewrite <- IH. f_equal.
  destruct (Z.min_spec x y) as [[H ->]|[H ->]].
  - apply Hf in H. lia.
  - destruct (Z.eq_dec x y); [subst; lia|]. assert (H1 : y < x) by lia. apply Hf in H1. lia.
Qed.
Lemma mono_insert_u : forall x l, insert_u (f x) (map f l) = map f (insert_u x l).
Proof.
  induction l as [|y t IH]; simpl; auto. rewrite mono_ltb, mono_eqb.
  destruct (x <? y); auto. destruct (x =? y); simpl; auto. rewrite IH. auto.
Qed.
Lemma mono_unique : forall l, unique (map f l) = map f (unique l).
Proof. induction l as [|x t IH]; simpl; auto. unfold unique in *. rewrite IH. apply mono_insert_u. Qed.
Lemma mono_list_eqb : forall l m, list_eqb (map f l) (map f m) = list_eqb l m.
Proof. induction l as [|x t IH]; intros [|y m]; simpl; auto. rewrite mono_eqb, IH. auto. Qed.
Lemma mono_take : forall A (g : A -> A) d d' l idx, Forall (fun i => (i < length l)%nat) idx ->
    take d' (map g l) idx = map g (take d l idx).
Proof.
  intros. unfold take. rewrite map_map. apply map_ext_Forall. eapply Forall_impl; [|eauto].
  intros i Hi. rewrite (nth_indep _ d' (g d)) by (rewrite map_length; auto). apply map_nth.
Qed.
Lemma mono_argsort_lt : forall E l, Forall (fun i => (i < length l)%nat) (argsort E l).
Proof.
  intros. rewrite Forall_forall. intros i Hi.
  apply (Permutation_in _ (argsort_perm E l)) in Hi. apply in_seq in Hi. lia.
Qed.
Lemma mono_ext_leb : forall e z, ext_leb (ext_by f e) (f z) = ext_leb e z.
Proof. intros [|a] z; simpl; auto. apply mono_leb. Qed.
Lemma mono_ext_eqb : forall e z, ext_eqb (ext_by f e) (f z) = ext_eqb e z.
Proof. intros [|a] z; simpl; auto. apply mono_eqb. Qed.
Lemma mono_ninf : forall e, is_ninf (ext_by f e) = is_ninf e.
Proof. intros [|a]; auto. Qed.

(** ** The monad *)
Definition rmap {A B} (g : A -> B) (x : res A) : res B :=
  match x with Ok a => Ok (g a) | Raise e => Raise e end.
(** [m'] does what [m] does, and [g] of its result. *)
Definition tr {E A B} (g : A -> B) (m : W E A) (m' : W E B) : Prop :=
  forall w, m' w = (rmap g (fst (m w)), snd (m w)).

Lemma tr_bind : forall E A B A' B' (g : A -> A') (h : B -> B') (m : W E A) m' (k : A -> W E B) k',
    tr g m m' -> (forall a, tr h (k a) (k' (g a))) -> tr h (wbind m k) (wbind m' k').
Proof.
  intros E A B A' B' g h m m' k k' H1 H2 w. unfold wbind. rewrite H1.
  destruct (m w) as [[a|e] w1]; simpl; auto. apply H2.
Qed.
Lemma tr_bind_id : forall E A B B' (h : B -> B') (m m' : W E A) (k : A -> W E B) k',
    (forall w, m' w = m w) -> (forall a, tr h (k a) (k' a)) -> tr h (wbind m k) (wbind m' k').
Proof.
  intros E A B B' h m m' k k' H1 H2 w. unfold wbind. rewrite H1.
  destruct (m w) as [[a|e] w1]; simpl; auto. apply H2.
Qed.
Lemma tr_ret : forall E A B (g : A -> B) a, tr (E := E) g (wret a) (wret (g a)).
Proof. intros. intros w. reflexivity. Qed.
Lemma tr_raise : forall E A B (g : A -> B) e, tr (E := E) g (wraise e) (wraise e).
Proof. intros. intros w. reflexivity. Qed.
Lemma tr_lift : forall E A B (g : A -> B) x y, y = rmap g x -> tr (E := E) g (wlift x) (wlift y).
Proof. intros. intros w. subst. reflexivity. Qed.
Lemma tr_lift_bind : forall E A B A' B' (g : A -> A') (h : B -> B') x y (k : A -> W E B) k',
    y = rmap g x -> (forall a, x = Ok a -> tr h (k a) (k' (g a))) ->
    tr h (wbind (wlift x) k) (wbind (wlift y) k').
Proof.
  intros E A B A' B' g h x y k k' -> H2 w. unfold wbind, wlift. destruct x as [a|e]; simpl; auto.
  apply H2. auto.
Qed.
Lemma tr_same : forall E A (m m' : W E A), tr (fun a => a) m m' <-> forall w, m' w = m w.
Proof.
  intros. split; intros H w; rewrite H; destruct (m w) as [[a|e] w1]; auto.
Qed.
Lemma tr_mapM : forall E A A' B B' (p : A -> A') (g : B -> B') (k : A -> W E B) k' l,
    (forall a, In a l -> tr g (k a) (k' (p a))) -> tr (map g) (wmapM k l) (wmapM k' (map p l)).
Proof.
  induction l as [|x t IH]; intros H; [intros w; reflexivity|].
  cbn [wmapM map]. apply tr_bind with (g := g); [apply H; simpl; auto|]. intros y.
  apply tr_bind with (g := map g); [apply IH; intros; apply H; simpl; auto|]. intros ys.
  intros w. reflexivity.
Qed.
Lemma tr_foldM : forall E A S S' (g : S -> S') (k : S -> A -> W E S) k' l s,
    (forall s a, tr g (k s a) (k' (g s) a)) -> tr g (wfoldM k l s) (wfoldM k' l (g s)).
Proof.
  induction l as [|x t IH]; intros s H; [intros w; reflexivity|].
  cbn [wfoldM]. apply tr_bind with (g := g); [apply H|]. intros y. apply IH. auto.
Qed.
Lemma tr_foldM_map : forall E A A' S S' (p : A -> A') (g : S -> S') (k : S -> A -> W E S) k' l s,
    (forall s a, In a l -> tr g (k s a) (k' (g s) (p a))) ->
    tr g (wfoldM k l s) (wfoldM k' (map p l) (g s)).
Proof.
  induction l as [|x t IH]; intros s H; [intros w; reflexivity|].
  cbn [wfoldM map]. apply tr_bind with (g := g); [apply H; simpl; auto|].
  intros y. apply IH. intros; apply H; simpl; auto.
Qed.
Lemma rmap_mapM : forall A A' B B' (p : A -> A') (g : B -> B') (k : A -> res B) k' l,
    (forall a, k' (p a) = rmap g (k a)) -> mapM k' (map p l) = rmap (map g) (mapM k l).
Proof.
  induction l as [|x t IH]; simpl; intros; auto. rewrite H. destruct (k x); simpl; auto.
  rewrite IH by auto. destruct (mapM k t); simpl; auto.
Qed.
Lemma foldM_ext : forall A S (k k' : S -> A -> res S) l s,
    (forall s a, In a l -> k' s a = k s a) -> foldM k' l s = foldM k l s.
Proof.
  induction l as [|x t IH]; simpl; intros; auto. rewrite H by auto.
  destruct (k s x); simpl; auto.
Qed.
Lemma rmap_foldM : forall A S S' (g : S -> S') (k : S -> A -> res S) k' l s,
    (forall s a, In a l -> k' (g s) a = rmap g (k s a)) ->
    foldM k' l (g s) = rmap g (foldM k l s).
Proof.
  induction l as [|x t IH]; simpl; intros; auto. rewrite H by auto.
  destruct (k s x); simpl; auto.
Qed.

(** ** Rows *)
Definition row_by (x : row) : row := mkRow (f (r_logl x)) (r_lab x) (r_dn x) (g0 (r_theta x)).
Definition mm_by (mm : ext * Z) : ext * Z := (ext_by f (fst mm), f (snd mm)).

Lemma mono_zip : forall ls labs dns ths,
    zip_rows (map f ls) labs dns (map g0 ths) = map row_by (zip_rows ls labs dns ths).
Proof.
  induction ls as [|x t IH]; intros [|b labs] [|d dns] [|h ths]; simpl; auto. rewrite IH. auto.
Qed.
Lemma mono_rows_logl : forall l, map r_logl (map row_by l) = map f (map r_logl l).
Proof. intros. rewrite !map_map. auto. Qed.
Lemma mono_array : forall r, array_given_run (run_by f g0 r) = rmap (map row_by) (array_given_run r).
Proof.
  intros r. unfold array_given_run. cbn [run_by thread_labels logl nlive_array theta].
  destruct (thread_labels r) as [labs|]; auto. rewrite !map_length.
  destruct (length (logl r) =? 0)%nat; auto.
  match goal with |- (if ?b then _ else _) = _ => destruct b end; auto.
  cbn [rmap]. rewrite mono_zip. auto.
Qed.
Definition dict_body {E} (samples : list row) (tmm : list (ext * Z)) : W E run :=
  let lg := map r_logl samples in
  let lmin := min_list lg in
  let nlive_0 := Z.of_nat (countb (fun mm => ext_leb (fst mm) lmin) tmm) in
  let* _ := wassert (0 <? nlive_0) in
  let nl := nlive_0 :: map (Z.add nlive_0) (cumsum (but_last (map r_dn samples))) in
  let dup := countb (fun mm => ext_eqb (fst mm) lmin) tmm in
  let n_min := countb (Z.eqb lmin) lg in
  let nl' :=
    if (1 <? dup)%nat
    then repeat nlive_0 n_min ++ skipn n_min (map (Z.add (1 - last nl 0)) nl)
    else nl in
  let* _ := if (1 <? dup)%nat then warn WDupStarts else wret tt in
  let* _ := wassert (0 <? min_list nl') in
  let* _ := wassert (last nl' 0 =? 1) in
  wret (mkRun lg (map r_theta samples) nl' (Some (map r_lab samples)) (Some tmm) None None).
Lemma dict_cons : forall E rows tmm, rows <> [] -> dict_given_run_array (E := E) rows tmm = dict_body rows tmm.
Proof. intros E [|x t] tmm H; [congruence|]. reflexivity. Qed.
Lemma mono_dict : forall E rows tmm,
    tr (run_by f g0) (dict_given_run_array (E := E) rows tmm)
       (dict_given_run_array (map row_by rows) (map mm_by tmm)).
Proof.
  intros E rows tmm. destruct rows as [|x t]; [intros w; reflexivity|].
  rewrite (dict_cons E (x :: t)) by congruence.
  rewrite (dict_cons E (map row_by (x :: t))) by (simpl; congruence). unfold dict_body.
  assert (Hm : min_list (map r_logl (map row_by (x :: t))) = f (min_list (map r_logl (x :: t)))).
  { rewrite mono_rows_logl. apply mono_min. simpl. congruence. }
  rewrite Hm.
  assert (H1 : countb (fun mm => ext_leb (fst mm) (f (min_list (map r_logl (x :: t))))) (map mm_by tmm) =
               countb (fun mm => ext_leb (fst mm) (min_list (map r_logl (x :: t)))) tmm).
  { apply mono_countb. intros. apply mono_ext_leb. }
  assert (H2 : countb (fun mm => ext_eqb (fst mm) (f (min_list (map r_logl (x :: t))))) (map mm_by tmm) =
               countb (fun mm => ext_eqb (fst mm) (min_list (map r_logl (x :: t)))) tmm).
  { apply mono_countb. intros. apply mono_ext_eqb. }
  rewrite H1, H2.
  assert (H3 : countb (Z.eqb (f (min_list (map r_logl (x :: t))))) (map r_logl (map row_by (x :: t))) =
               countb (Z.eqb (min_list (map r_logl (x :: t)))) (map r_logl (x :: t))).
  { rewrite mono_rows_logl. apply mono_countb. intros. apply mono_eqb. }
  rewrite H3.
  assert (H4 : map r_dn (map row_by (x :: t)) = map r_dn (x :: t)) by (rewrite map_map; auto).
  rewrite H4.
  repeat (apply tr_bind_id; [reflexivity|intros []]).
  intros w. unfold wret, run_by. cbn [fst snd rmap logl theta nlive_array thread_labels thread_min_max output settings option_map].
  rewrite mono_rows_logl. rewrite !map_map. reflexivity.
Qed.
Lemma mono_last : forall A (g : A -> A) l d d', l <> [] -> last (map g l) d' = g (last l d).
Proof.
  induction l as [|x t IH]; intros; [congruence|]. destruct t as [|y t]; auto.
  change (last (map g (x :: y :: t)) d') with (last (map g (y :: t)) d').
  rewrite (IH d d') by congruence. reflexivity.
Qed.
Lemma mono_thread_dn : forall l, thread_dn (map row_by l) = map row_by (thread_dn l).
Proof.
  induction l as [|x t IH]; auto. destruct t as [|y t]; auto.
  cbn [map thread_dn]. f_equal. apply IH.
Qed.
Lemma mono_filter : forall A B (g : A -> B) p q l, (forall x, p (g x) = q x) ->
    filter p (map g l) = map g (filter q l).
Proof. induction l as [|x t IH]; simpl; intros; auto. rewrite H, IH by auto. destruct (q x); auto. Qed.
Lemma mono_combine : forall A B B' (g : B -> B') (l : list A) m,
    combine l (map g m) = map (fun p => (fst p, g (snd p))) (combine l m).
Proof. induction l as [|x t IH]; intros [|y m]; simpl; auto. rewrite IH. auto. Qed.
Lemma thread_dn_nil : forall l, thread_dn l = [] <-> l = [].
Proof. intros [|x [|y t]]; split; simpl; intros; congruence. Qed.

Lemma array_labels : forall r rows labs, array_given_run r = Ok rows -> thread_labels r = Some labs ->
    map r_lab rows = labs.
Proof.
  intros r rows labs H Hl. unfold array_given_run in H. rewrite Hl in H.
  destruct (length (logl r) =? 0)%nat eqn:Hn; [discriminate|].
  destruct ((length labs =? length (logl r)) && (length (nlive_array r) =? length (logl r))
               && (length (theta r) =? length (logl r)))%nat eqn:Hc; [|discriminate].
  apply andb_true_iff in Hc as [Hc H3]. apply andb_true_iff in Hc as [H1 H2].
  apply Nat.eqb_eq in H1, H2, H3. apply Nat.eqb_neq in Hn.
  injection H as <-.
  assert (Hd : length (diff (nlive_array r) ++ [-1]) = length (logl r)).
  { assert (Hdiff : forall l, l <> [] -> S (length (diff l)) = length l).
    { clear. induction l as [|x t IH]; [congruence|]. destruct t; auto. intros _.
      cbn [diff length] in *. rewrite IH by congruence. auto. }
    rewrite app_length. simpl. rewrite Nat.add_1_r, Hdiff; auto. destruct (nlive_array r); simpl in *; congruence. }
  revert Hd H1 H3. generalize (diff (nlive_array r) ++ [-1]) (logl r) (theta r). clear.
  induction labs as [|b labs IH]; intros [|d dns] [|x t] [|h ths]; simpl; intros; try discriminate; auto.
  f_equal. apply IH; auto.
Qed.

Lemma mono_threads : forall E r,
    tr (map (run_by f g0)) (get_run_threads (E := E) r) (get_run_threads (run_by f g0 r)).
Proof.
  intros E r. unfold get_run_threads. rewrite mono_array.
  destruct (array_given_run r) as [rows|e] eqn:Ha; [|intros w; reflexivity].
  cbn [rmap]. intros w. unfold wbind, wlift. revert w.
  change (tr (map (run_by f g0))
    (match thread_labels r, thread_min_max r with
     | Some labs, Some tmm =>
       wbind (E := E) (wassert (length tmm =? length (unique labs))%nat) (fun _ =>
       wmapM (fun '(lab, mm) =>
               wbind (wassert (snd mm =? r_logl (last (thread_dn (filter (fun x => r_lab x =? lab) rows)) row0)))
               (fun _ => dict_given_run_array (thread_dn (filter (fun x => r_lab x =? lab) rows)) [mm]))
            (combine (unique labs) tmm))
     | _, _ => wraise AttributeError end)
    (match thread_labels (run_by f g0 r), thread_min_max (run_by f g0 r) with
     | Some labs, Some tmm =>
       wbind (wassert (length tmm =? length (unique labs))%nat) (fun _ =>
       wmapM (fun '(lab, mm) =>
               wbind (wassert (snd mm =? r_logl (last (thread_dn (filter (fun x => r_lab x =? lab) (map row_by rows))) row0)))
               (fun _ => dict_given_run_array (thread_dn (filter (fun x => r_lab x =? lab) (map row_by rows))) [mm]))
            (combine (unique labs) tmm))
     | _, _ => wraise AttributeError end)).
  cbn [run_by thread_labels thread_min_max].
  destruct (thread_labels r) as [labs|] eqn:Hl; [|apply tr_raise].
  destruct (thread_min_max r) as [tmm|]; [|apply tr_raise]. cbn [option_map].
  rewrite map_length. apply tr_bind_id; [reflexivity|]. intros _.
  change (map (fun mm => (ext_by f (fst mm), f (snd mm))) tmm) with (map mm_by tmm).
  rewrite mono_combine. apply tr_mapM. intros [lab mm] Hin. cbn [fst snd].
  assert (Hne : thread_dn (filter (fun x => r_lab x =? lab) rows) <> []).
  { rewrite thread_dn_nil. apply in_combine_l in Hin. apply (proj1 (in_unique _ _)) in Hin.
    rewrite <- (array_labels _ _ _ Ha Hl) in Hin. apply in_map_iff in Hin as (x & <- & Hx).
    intros Hn. assert (Hi : In x (filter (fun y => r_lab y =? r_lab x) rows)).
    { apply filter_In. split; auto. apply Z.eqb_refl. }
    rewrite Hn in Hi. auto. }
  rewrite (mono_filter _ _ row_by _ (fun x => r_lab x =? lab)) by auto.
  rewrite mono_thread_dn.
  apply tr_bind_id.
  - intros w. rewrite (mono_last _ row_by _ row0 row0 Hne).
    unfold mm_by. cbn [snd row_by r_logl]. rewrite mono_eqb. auto.
  - intros _. apply (mono_dict E _ [mm]).
Qed.

(** ** Checks *)
Lemma mono_members : forall r, check_ns_run_members (run_by f g0 r) = check_ns_run_members r.
Proof.
  intros r. unfold check_ns_run_members. cbn [run_by settings thread_labels thread_min_max logl nlive_array theta].
  destruct (thread_min_max r); cbn [option_map]; rewrite ?map_length; auto.
Qed.
Lemma mono_logls : forall E lg da dw w, env_compares E ->
    check_ns_run_logls (E := E) (map f lg) da dw w = check_ns_run_logls lg da dw w.
Proof.
  intros E lg da dw w HE. unfold check_ns_run_logls. rewrite (HE f lg Hf).
  rewrite (mono_take _ f 0 0 lg _ (mono_argsort_lt E lg)), mono_list_eqb, mono_unique, !map_length. auto.
Qed.
Lemma where_nonempty : forall p (l : list Z), (exists x, In x l /\ p x = true) -> where_ p l <> [].
Proof.
  intros p l (x & Hx & Hp). unfold where_. generalize 0%nat.
  induction l as [|y t IH]; [contradiction|]. intros k. simpl. destruct Hx as [->|Hx].
  - rewrite Hp. congruence.
  - destruct (p y); [congruence|]. auto.
Qed.
Lemma mono_nth : forall l i d d', (i < length l)%nat -> nth i (map f l) d' = f (nth i l d).
Proof. intros. rewrite (nth_indep _ d' (f d)) by (rewrite map_length; auto). apply map_nth. Qed.
Lemma where_lt : forall (p : Z -> bool) l i, In i (where_ p l) -> (i < length l)%nat.
Proof. intros. apply (in_where _ _ 0) in H. tauto. Qed.
Lemma hd_In : forall A (l : list A) d, l <> [] -> In (hd d l) l.
Proof. intros A [|x t] d H; [congruence|]. simpl. auto. Qed.
Lemma last_In' : forall A (l : list A) d, l <> [] -> In (last l d) l.
Proof.
  induction l as [|x t IH]; intros d H; [congruence|]. destruct t as [|y t]; [simpl; auto|].
  right. change (last (x :: y :: t) d) with (last (y :: t) d). apply IH. congruence.
Qed.
Lemma mono_nth_mm : forall tmm i, nth i (map mm_by tmm) (NInf, f 0) = mm_by (nth i tmm (NInf, 0)).
Proof. intros. apply (map_nth mm_by tmm (NInf, 0)). Qed.
Lemma mono_check_threads : forall r,
    (forall labs, thread_labels r = Some labs -> length labs = length (logl r)) ->
    check_ns_run_threads (run_by f g0 r) = check_ns_run_threads r.
Proof.
  intros r Hlen. unfold check_ns_run_threads. cbn [run_by thread_labels thread_min_max logl].
  destruct (thread_labels r) as [labs|]; auto. specialize (Hlen labs eq_refl).
  destruct (thread_min_max r) as [tmm|]; auto. cbn [option_map]. rewrite map_length.
  assert (He : existsb (fun mm => is_ninf (fst mm)) (map (fun mm => (ext_by f (fst mm), f (snd mm))) tmm) =
               existsb (fun mm => is_ninf (fst mm)) tmm).
  { clear. induction tmm as [|[e z] t IH]; simpl; auto. rewrite mono_ninf, IH. auto. }
  rewrite He. clear He.
  destruct (assertb (list_eqb (zrange (length tmm)) (unique labs))) eqn:Hz; cbn [rbind]; auto.
  destruct (assertb (existsb (fun mm => is_ninf (fst mm)) tmm)); cbn [rbind]; auto.
  apply foldM_ext. intros [] lab Hlab.
  assert (Hr : (Z.to_nat lab < length tmm)%nat).
  { destruct a. apply assertb_Ok in Hz. apply list_eqb_eq in Hz. rewrite <- Hz in Hlab.
    apply in_zrange in Hlab. lia. }
  apply (proj1 (in_unique _ _)) in Hlab.
  assert (Hne : where_ (Z.eqb lab) labs <> []).
  { apply where_nonempty. exists lab. split; auto. apply Z.eqb_refl. }
  change (map (fun mm => (ext_by f (fst mm), f (snd mm))) tmm) with (map mm_by tmm).
  rewrite (nth_indep _ (NInf, 0) (NInf, f 0)) by (rewrite map_length; auto).
  rewrite mono_nth_mm.
  assert (Hh : (hd 0%nat (where_ (Z.eqb lab) labs) < length (logl r))%nat).
  { rewrite <- Hlen. apply (where_lt (Z.eqb lab)), hd_In; auto. }
  assert (Hl : (last (where_ (Z.eqb lab) labs) 0%nat < length (logl r))%nat).
  { rewrite <- Hlen. apply (where_lt (Z.eqb lab)), last_In'; auto. }
  rewrite (mono_nth _ _ 0 0 Hh), (mono_nth _ _ 0 0 Hl).
  unfold mm_by. cbn [fst snd]. rewrite mono_ext_leb, mono_eqb. auto.
Qed.
Lemma members_len : forall r u labs, check_ns_run_members r = Ok u -> thread_labels r = Some labs ->
    length labs = length (logl r).
Proof.
  intros r u labs H Hl. unfold check_ns_run_members in H. rewrite Hl in H.
  destruct (settings r); [discriminate|]. destruct (thread_min_max r); [|discriminate].
  cbn [assertb rbind] in H.
  destruct (length (logl r) =? length (nlive_array r))%nat; [|discriminate]. cbn [assertb rbind] in H.
  destruct (length (logl r) =? length labs)%nat eqn:He; [|discriminate].
  apply Nat.eqb_eq in He. auto.
Qed.
Lemma mono_check : forall E r da dw w, env_compares E ->
    check_ns_run (E := E) (run_by f g0 r) da dw w = check_ns_run r da dw w.
Proof.
  intros E r da dw w HE. unfold check_ns_run. rewrite mono_members.
  unfold wbind at 1 3. unfold wlift at 1 3.
  destruct (check_ns_run_members r) as [u|e] eqn:Hm; auto.
  unfold wbind. change (logl (run_by f g0 r)) with (map f (logl r)). rewrite (mono_logls E (logl r) da dw w HE).
  destruct (check_ns_run_logls (logl r) da dw w) as [[[]|e] w1]; auto.
  rewrite mono_check_threads; auto. intros. eapply members_len; eauto.
Qed.

(** ** Combining *)
Lemma mono_sort_rows : forall E rows, env_compares E ->
    sort_rows E (map row_by rows) = map row_by (sort_rows E rows).
Proof.
  intros E rows HE. unfold sort_rows. rewrite mono_rows_logl, (HE f _ Hf). apply mono_take.
  pose proof (mono_argsort_lt E (map r_logl rows)) as H. rewrite map_length in H. auto.
Qed.
Lemma mono_relabel : forall E runs tot da dw, env_compares E ->
    tr (map (run_by f g0)) (relabel_runs (E := E) tot runs da dw) (relabel_runs tot (map (run_by f g0) runs) da dw).
Proof.
  intros E runs tot da dw HE. revert tot.
  induction runs as [|r t IH]; intros tot; [intros w; reflexivity|].
  cbn [map relabel_runs]. apply tr_bind_id; [intros w; apply mono_check; auto|]. intros _.
  cbn [run_by thread_labels thread_min_max].
  destruct (thread_labels r) as [labs|]; [|apply tr_raise].
  destruct (thread_min_max r) as [tmm|]; [|apply tr_raise]. cbn [option_map].
  rewrite map_length. eapply tr_bind; [apply IH|]. intros t' w. reflexivity.
Qed.
Lemma mono_get_tmm : forall l, flat_map get_tmm (map (run_by f g0) l) = map mm_by (flat_map get_tmm l).
Proof.
  induction l as [|r t IH]; simpl; auto. rewrite map_app, IH. f_equal.
  unfold get_tmm. cbn [run_by thread_min_max]. destruct (thread_min_max r); auto.
Qed.
Lemma mono_sum_output : forall get l, sum_output get (map (run_by f g0) l) = sum_output get l.
Proof. induction l as [|r t IH]; simpl; auto. rewrite IH. auto. Qed.
Lemma concat_map_map : forall A B (g : A -> B) l, concat (map (map g) l) = map g (concat l).
Proof. induction l as [|x t IH]; simpl; auto. rewrite map_app, IH. auto. Qed.

Definition combine_body {E} (runs : list run) (da dw : bool) : W E run :=
  let* rl := relabel_runs 0 runs da dw in
  let tmm := flat_map get_tmm rl in
  let* samples := wlift (mapM array_given_run rl) in
  let samples := sort_rows E (concat samples) in
  let* r := dict_given_run_array samples tmm in
  let out := mkOut (option_map ONum (sum_output o_nlike runs))
                   (option_map ONum (sum_output o_ndead runs)) None [] in
  let r := with_output r (Some out) in
  let* _ := check_ns_run r da dw in
  wret r.
Lemma mono_combine_body : forall E runs da dw, env_compares E ->
    tr (run_by f g0) (combine_body (E := E) runs da dw) (combine_body (map (run_by f g0) runs) da dw).
Proof.
  intros E runs da dw HE. unfold combine_body.
  eapply tr_bind; [apply mono_relabel; auto|]. intros rl.
  apply tr_bind with (g := map (map row_by)).
  { apply tr_lift. apply rmap_mapM. apply mono_array. }
  intros samples. rewrite mono_get_tmm, concat_map_map, mono_sort_rows, !mono_sum_output by auto.
  eapply tr_bind; [apply mono_dict|]. intros r.
  apply tr_bind_id; [intros w; apply (mono_check E (with_output r _)); auto|].
  intros _ w. reflexivity.
Qed.
Lemma mono_combine_runs : forall E runs da dw, env_compares E ->
    tr (run_by f g0) (combine_ns_runs (E := E) runs da dw) (combine_ns_runs (map (run_by f g0) runs) da dw).
Proof.
  intros E runs da dw HE. destruct runs as [|r [|r2 t]]; [apply tr_raise| |].
  - cbn [combine_ns_runs map]. apply tr_bind_id; [intros w; apply mono_check; auto|].
    intros _ w. reflexivity.
  - exact (mono_combine_body E (r :: r2 :: t) da dw HE).
Qed.

(** ** Threads: distances decide where a start on no point goes. *)

Lemma mono_argmin : forall A (p q : A -> Z) l,
    (forall x y, (p x < p y) <-> (q x < q y)) -> argmin (map p l) = argmin (map q l).
Proof.
  intros A p q l H. destruct l as [|x t]; auto. cbn [map argmin].
  assert (Hg : forall t x bi i, argmin_from (p x) bi i (map p t) = argmin_from (q x) bi i (map q t)).
  { clear x t. induction t as [|y t IH]; intros; auto. cbn [map argmin_from].
    assert (He : (p y <? p x) = (q y <? q x)).
    { apply eq_true_iff_eq. rewrite !Z.ltb_lt. apply H. }
    rewrite He. destruct (q y <? q x); apply IH. }
  apply Hg.
Qed.
Lemma mono_bump : forall i l, (i < length l)%nat -> bump i (map row_by l) = map row_by (bump i l).
Proof.
  intros i l Hi. unfold bump.
  rewrite (nth_indep _ row0 (row_by row0)) by (rewrite map_length; auto). rewrite map_nth.
  generalize (nth i l row0) as x. intros x. clear Hi. revert i.
  induction l as [|y t IH]; intros [|i]; simpl; auto. rewrite IH. auto.
Qed.
Lemma bump_out : forall i l, (length l <= i)%nat -> bump i l = l.
Proof.
  intros i l. unfold bump. generalize (nth i l row0). intros x. revert i.
  induction l as [|y t IH]; intros [|i]; simpl; intros; auto; [lia|]. rewrite IH by lia. auto.
Qed.
Lemma mono_bump_any : forall i l, bump i (map row_by l) = map row_by (bump i l).
Proof.
  intros. destruct (Nat.lt_ge_cases i (length l)); [apply mono_bump; auto|].
  rewrite !bump_out; auto. rewrite map_length. auto.
Qed.
Lemma bump_logl : forall i l, map r_logl (bump i l) = map r_logl l.
Proof.
  intros i l. destruct (Nat.lt_ge_cases i (length l)) as [Hi|Hi]; [|rewrite bump_out; auto].
  unfold bump. revert i Hi. induction l as [|y t IH]; intros [|i] Hi; simpl in *; auto.
  f_equal. apply IH. lia.
Qed.
Lemma add_start_logl : forall E ab rows s (w : world E) rows' w',
    add_start ab rows s w = (Ok rows', w') -> map r_logl rows' = map r_logl rows.
Proof.
  intros E ab rows s w rows' w' H. unfold add_start in H. winv.
  destruct (where_ (fun x => r_logl x =? s) rows) as [|i [|j t]]; winv; apply bump_logl.
Qed.
Lemma mono_add_start : forall E ab rows s, (steady f \/ In s (map r_logl rows)) ->
    tr (map row_by) (add_start (E := E) ab rows s) (add_start ab (map row_by rows) (f s)).
Proof.
  intros E ab rows s Hs. unfold add_start. rewrite mono_where.
  rewrite (mono_where_ext _ (fun x => r_logl (row_by x) =? f s) (fun x => r_logl x =? s) rows) by (intros; apply mono_eqb).
  apply tr_bind_id; [reflexivity|]. intros _.
  destruct (where_ (fun x => r_logl x =? s) rows) as [|i [|j t]] eqn:Hw.
  - destruct Hs as [Hs|Hs].
    + rewrite map_map. cbn [row_by r_logl].
      rewrite (mono_argmin _ (fun x => Z.abs (f (r_logl x) - f s)) (fun x => Z.abs (r_logl x - s)))
        by (intros; apply Hs).
      intros w. unfold wret. cbn [fst snd rmap]. rewrite mono_bump_any. auto.
    + exfalso. apply in_map_iff in Hs as (x & Hx & Hin). destruct (In_nth _ _ row0 Hin) as (i & Hi & He).
      assert (Hw' : In i (where_ (fun x => r_logl x =? s) rows)).
      { apply (in_where _ _ row0). split; auto. rewrite He. apply Z.eqb_eq. auto. }
      rewrite Hw in Hw'. auto.
  - intros w. unfold wret. cbn [fst snd rmap]. rewrite mono_bump_any. auto.
  - apply tr_bind_id; [reflexivity|]. intros k w. unfold wret. cbn [fst snd rmap]. rewrite mono_bump_any. auto.
Qed.
Lemma mono_add_starts : forall E ab starts rows,
    (steady f \/ forall s, In s starts -> In s (map r_logl rows)) ->
    tr (map row_by) (wfoldM (add_start (E := E) ab) starts rows)
       (wfoldM (add_start ab) (map f starts) (map row_by rows)).
Proof.
  induction starts as [|s t IH]; intros rows H w; [reflexivity|].
  cbn [map wfoldM]. unfold wbind.
  rewrite (mono_add_start E ab rows s) by (destruct H as [H|H]; [auto|right; apply H; simpl; auto]).
  destruct (add_start ab rows s w) as [[rows'|e] w1] eqn:Ha; auto. cbn [fst snd rmap].
  apply IH. destruct H as [H|H]; [auto|right]. intros s' Hs'.
  rewrite (add_start_logl _ _ _ _ _ _ _ Ha). apply H. simpl; auto.
Qed.
Lemma mono_finite_starts : forall tmm, finite_starts (map mm_by tmm) = map f (finite_starts tmm).
Proof.
  induction tmm as [|[[|e] z] t IH]; auto.
  unfold finite_starts in *. cbn [map flat_map mm_by fst snd ext_by app]. rewrite IH. auto.
Qed.
Lemma dict_labels : forall E rows tmm (w : world E) r w', dict_given_run_array rows tmm w = (Ok r, w') ->
    exists labs, thread_labels r = Some labs /\ length labs = length (logl r).
Proof.
  intros E rows tmm w r w' H. destruct rows as [|x t]; [discriminate|].
  rewrite dict_cons in H by congruence. unfold dict_body in H. winv.
  cbn [thread_labels logl]. eexists. split; [reflexivity|]. cbn [length]. rewrite !map_length. auto.
Qed.
Lemma mono_drop_bad : forall r labs, thread_labels r = Some labs -> length labs = length (logl r) ->
    drop_bad_threads (run_by f g0 r) = rmap (run_by f g0) (drop_bad_threads r).
Proof.
  intros r labs H1 H2. unfold drop_bad_threads. rewrite mono_check_threads by (intros; congruence).
  destruct (check_ns_run_threads r) as [u|e]; auto. destruct e; auto.
Qed.
Definition combine_threads_body {E} (threads : list run) (assert_bp : bool) : W E run :=
  let tmm := flat_map get_tmm threads in
  let* _ := wassert (length threads =? length tmm)%nat in
  let* samples := wlift (mapM array_given_run threads) in
  let samples := sort_rows E (concat samples) in
  let* state := get_state in
  let* _ := seed 0 in
  let* samples := wfoldM (add_start assert_bp) (finite_starts tmm) samples in
  let* _ := set_state state in
  let* r := dict_given_run_array samples tmm in
  wlift (drop_bad_threads r).
Lemma sort_rows_perm : forall E rows, Permutation (map r_logl (sort_rows E rows)) (map r_logl rows).
Proof.
  intros. unfold sort_rows. apply Permutation_map. unfold take.
  pose proof (argsort_perm E (map r_logl rows)) as H. rewrite map_length in H.
  apply (Permutation_map (fun i => nth i rows row0)) in H. rewrite H.
  enough (He : map (fun i => nth i rows row0) (seq 0 (length rows)) = rows) by (rewrite He; auto).
  clear. apply nth_ext with (d := row0) (d' := row0).
  - rewrite map_length, seq_length. auto.
  - intros i Hi. rewrite map_length, seq_length in Hi.
    rewrite (nth_indep _ row0 (nth 0 rows row0)) by (rewrite map_length, seq_length; auto).
    rewrite (map_nth (fun i => nth i rows row0) (seq 0 (length rows)) 0%nat i).
    rewrite seq_nth by auto. auto.
Qed.
Lemma zip_logl : forall ls labs dns ths, length labs = length ls -> length dns = length ls -> length ths = length ls ->
    map r_logl (zip_rows ls labs dns ths) = ls.
Proof.
  induction ls as [|x t IH]; intros [|b labs] [|d dns] [|h ths]; simpl; intros; try discriminate; auto.
  f_equal. auto.
Qed.
Lemma diff_len : forall l, l <> [] -> S (length (diff l)) = length l.
Proof.
  induction l as [|x t IH]; [congruence|]. destruct t; auto. intros _.
  cbn [diff length] in *. rewrite IH by congruence. auto.
Qed.
Lemma array_logl : forall r rows, array_given_run r = Ok rows -> map r_logl rows = logl r.
Proof.
  intros r rows H. unfold array_given_run in H. destruct (thread_labels r) as [labs|]; [|discriminate].
  destruct (length (logl r) =? 0)%nat eqn:Hn; [discriminate|].
  destruct ((length labs =? length (logl r)) && (length (nlive_array r) =? length (logl r))
               && (length (theta r) =? length (logl r)))%nat eqn:Hc; [|discriminate].
  apply andb_true_iff in Hc as [Hc H3]. apply andb_true_iff in Hc as [H1 H2].
  apply Nat.eqb_eq in H1, H2, H3. apply Nat.eqb_neq in Hn. injection H as <-.
  apply zip_logl; auto. rewrite app_length. simpl. rewrite Nat.add_1_r, diff_len; auto.
  destruct (nlive_array r); simpl in *; congruence.
Qed.
Lemma arrays_logl : forall ths samples, mapM array_given_run ths = Ok samples ->
    map r_logl (concat samples) = flat_map logl ths.
Proof.
  induction ths as [|r t IH]; simpl; intros samples H; [injection H as <-; auto|].
  destruct (array_given_run r) as [rows|e] eqn:Ha; [|discriminate]. cbn [rbind] in H.
  destruct (mapM array_given_run t) as [ss|e]; [|discriminate]. injection H as <-.
  cbn [concat]. rewrite map_app, (array_logl _ _ Ha), (IH ss) by auto. auto.
Qed.
Lemma mono_combine_threads : forall E ths ab, env_compares E ->
    (steady f \/ forall s, In s (finite_starts (flat_map get_tmm ths)) -> In s (flat_map logl ths)) ->
    tr (run_by f g0) (combine_threads (E := E) ths ab) (combine_threads (map (run_by f g0) ths) ab).
Proof.
  intros E ths ab HE Hs. destruct ths as [|r0 ths0]; [apply tr_raise|].
  change (tr (run_by f g0) (combine_threads_body (E := E) (r0 :: ths0) ab)
             (combine_threads_body (map (run_by f g0) (r0 :: ths0)) ab)).
  revert Hs. generalize (r0 :: ths0). clear r0 ths0. intros ths Hs. unfold combine_threads_body.
  rewrite mono_get_tmm, !map_length. apply tr_bind_id; [reflexivity|]. intros _.
  apply tr_lift_bind with (g := map (map row_by)).
  { apply rmap_mapM. apply mono_array. }
  intros samples Hm.
  rewrite concat_map_map, mono_sort_rows, mono_finite_starts by auto.
  apply tr_bind_id; [reflexivity|]. intros st. apply tr_bind_id; [reflexivity|]. intros _.
  apply tr_bind with (g := map row_by).
  { apply mono_add_starts. destruct Hs as [Hs|Hs]; [auto|right]. intros s Hin.
    apply (Permutation_in _ (Permutation_sym (sort_rows_perm E (concat samples)))).
    rewrite (arrays_logl _ _ Hm). auto. }
  intros rows. apply tr_bind_id; [reflexivity|]. intros _.
  intros w. unfold wbind. rewrite (mono_dict E rows (flat_map get_tmm ths) w).
  destruct (dict_given_run_array rows (flat_map get_tmm ths) w) as [[r|e] w1] eqn:Hd; auto.
  cbn [fst snd rmap]. destruct (dict_labels _ _ _ _ _ _ Hd) as (labs & H1 & H2).
  unfold wlift. cbn [fst snd]. rewrite (mono_drop_bad r labs H1 H2). auto.
Qed.

(** ** Bootstrap *)
Lemma mono_draw : forall E r n sep (w : world E), draw_inds (run_by f g0 r) n sep w = draw_inds r n sep w.
Proof.
  intros E r n sep w. unfold draw_inds. destruct sep; auto. cbn [run_by settings thread_min_max].
  destruct (settings r) as [[ninit|]|]; auto. destruct (thread_min_max r) as [tmm|]; auto.
  cbn [option_map]. unfold wbind.
  assert (He : forallb (fun mm => is_ninf (fst mm)) (firstn ninit (map (fun mm => (ext_by f (fst mm), f (snd mm))) tmm)) =
               forallb (fun mm => is_ninf (fst mm)) (firstn ninit tmm)).
  { rewrite firstn_map. generalize (firstn ninit tmm). clear. induction l as [|[e z] t IH]; simpl; auto.
    rewrite mono_ninf, IH. auto. }
  rewrite He. auto.
Qed.
Lemma mono_get_thread : forall E ths i,
    tr (run_by f g0) (get_thread (E := E) ths i) (get_thread (map (run_by f g0) ths) i).
Proof.
  intros E ths i w. unfold get_thread. rewrite nth_error_map. destruct (nth_error ths i); reflexivity.
Qed.
Lemma mono_bootstrap : forall E r ths sep b, env_compares E -> steady f ->
    tr (run_by f g0) (bootstrap_resample_run (E := E) r ths sep b)
       (bootstrap_resample_run (run_by f g0 r) (option_map (map (run_by f g0)) ths) sep b).
Proof.
  intros E r ths sep b HE Hs. unfold bootstrap_resample_run.
  apply tr_bind_id; [reflexivity|]. intros st. apply tr_bind_id; [reflexivity|]. intros _.
  apply tr_bind with (g := map (run_by f g0)).
  { destruct ths; [apply tr_ret|apply mono_threads]. }
  intros l. rewrite map_length. apply tr_bind_id; [intros; apply mono_draw|]. intros inds.
  apply tr_bind with (g := map (run_by f g0)).
  { rewrite <- (map_id inds) at 2. apply tr_mapM. intros. apply mono_get_thread. }
  intros drawn. eapply tr_bind; [apply mono_combine_threads; auto|]. intros r1.
  apply tr_bind_id; [reflexivity|]. intros _ w. reflexivity.
Qed.

(** ** From samples arrays to runs *)
Lemma mono_sort_samps : forall E l, env_compares E -> sort_samps E (map (samp_by f g0) l) = map (samp_by f g0) (sort_samps E l).
Proof.
  intros E l HE. unfold sort_samps.
  assert (He : map s_logl (map (samp_by f g0) l) = map f (map s_logl l)) by (rewrite !map_map; auto).
  rewrite He, (HE f _ Hf). apply mono_take.
  pose proof (mono_argsort_lt E (map s_logl l)) as H. rewrite map_length in H. auto.
Qed.
Lemma mono_draw_deaths : forall E births bl dd (w : world E),
    Forall (fun i => (i < length births)%nat) dd ->
    draw_deaths (map f births) (f bl) dd w = draw_deaths births bl dd w.
Proof.
  intros E births bl dd w Hd. unfold draw_deaths. rewrite (mono_take _ f 0 0 births dd Hd), mono_where_eq.
  assert (He : forallb (neqb (f bl)) (map f (take 0 births dd)) = forallb (neqb bl) (take 0 births dd)).
  { induction (take 0 births dd) as [|x t IH]; simpl; auto. rewrite IH. unfold neqb. rewrite mono_eqb. auto. }
  rewrite He. auto.
Qed.
Lemma mono_birth_step : forall E births logls bi i (w : world E),
    length births = length logls -> (i < length births)%nat ->
    birth_step (map f births) (map f logls) bi i w = birth_step births logls bi i w.
Proof.
  intros E births logls bi i w Hl Hi. unfold birth_step. destruct (nth i bi None); auto.
  rewrite (mono_nth births i 0 0 Hi), !mono_where_eq.
  assert (Hd : Forall (fun j => (j < length births)%nat) (where_ (Z.eqb (nth i births 0)) logls)).
  { rewrite Forall_forall. intros j Hj. rewrite Hl. eapply where_lt; eauto. }
  destruct (where_ (Z.eqb (nth i births 0)) logls) as [|d [|d2 t]]; auto;
  unfold wbind; match goal with |- context [wassert ?b w] => destruct (wassert b w) as [[u|e] w1] end; auto;
  rewrite mono_draw_deaths; auto.
Qed.
Lemma wfoldM_ext : forall E A S (k k' : S -> A -> W E S) l s w,
    (forall s a w, In a l -> k' s a w = k s a w) -> wfoldM k' l s w = wfoldM k l s w.
Proof.
  induction l as [|x t IH]; intros s w H; auto. cbn [wfoldM]. unfold wbind. rewrite H by (simpl; auto).
  destruct (k s x w) as [[s1|e] w1]; auto. apply IH. intros; apply H; simpl; auto.
Qed.
Lemma mono_birth_loop : forall E births logls (w : world E), length births = length logls ->
    birth_loop (map f births) (map f logls) w = birth_loop births logls w.
Proof.
  intros E births logls w Hl. unfold birth_loop. destruct births as [|b0 bt]; auto.
  change (item0 (map f (b0 :: bt))) with (Ok (f b0)). change (item0 (b0 :: bt)) with (Ok b0).
  unfold wbind, wlift.
  assert (H1 : forallb (fun '(x, y) => x <=? y) (combine (map f (b0 :: bt)) (map f logls)) =
               forallb (fun '(x, y) => x <=? y) (combine (b0 :: bt) logls)).
  { generalize (b0 :: bt) as l. clear - Hf. intros l. revert logls.
    induction l as [|x t IH]; intros [|y m]; simpl; auto. rewrite mono_leb, IH. auto. }
  rewrite H1. destruct (wassert (forallb (fun '(x, y) => x <=? y) (combine (b0 :: bt) logls)) w) as [[u|e] w1]; auto.
  assert (H2 : map (fun x => if x =? f b0 then Some (-1) else None) (map f (b0 :: bt)) =
               map (fun x => if x =? b0 then Some (-1) else None) (b0 :: bt)).
  { rewrite map_map. apply map_ext. intros. rewrite mono_eqb. auto. }
  rewrite H2, map_length.
  rewrite (wfoldM_ext _ _ _ (birth_step (b0 :: bt) logls) (birth_step (map f (b0 :: bt)) (map f logls))).
  - reflexivity.
  - intros s i w2 Hi. apply in_seq in Hi. apply mono_birth_step; auto. lia.
Qed.
Lemma mono_birth_inds : forall E births logls da dw (w : world E), env_compares E ->
    length births = length logls ->
    birth_inds_given_contours (map f births) (map f logls) da dw w =
    birth_inds_given_contours births logls da dw w.
Proof.
  intros E births logls da dw w HE Hl. unfold birth_inds_given_contours, wbind.
  rewrite mono_logls by auto. destruct (check_ns_run_logls logls da dw w) as [[u|e] w1]; auto.
  cbn [get_state]. destruct (seed 0 w1) as [[v|e] w2]; auto. rewrite mono_birth_loop; auto.
Qed.
Lemma mono_thread_step : forall lg bi labs tmm delta label,
    length labs = length lg -> In label labs -> Forall (fun b => b < Z.of_nat (length lg)) bi ->
    lg <> [] ->
    thread_step (map f lg) bi labs (map mm_by tmm, delta) label =
    rmap (fun st => (map mm_by (fst st), snd st)) (thread_step lg bi labs (tmm, delta) label).
Proof.
  intros lg bi labs tmm delta label Hl Hin Hb Hne. unfold thread_step.
  assert (Hw : where_ (Z.eqb label) labs <> []).
  { apply where_nonempty. exists label. split; auto. apply Z.eqb_refl. }
  assert (Hlast : (last (where_ (Z.eqb label) labs) 0%nat < length lg)%nat).
  { rewrite <- Hl. apply (where_lt (Z.eqb label)), last_In'; auto. }
  rewrite (mono_nth _ _ 0 0 Hlast).
  set (sb := nth (hd 0%nat (where_ (Z.eqb label) labs)) bi 0).
  assert (Hsb : (Z.to_nat sb < length lg)%nat).
  { assert (Hs : sb < Z.of_nat (length lg) \/ sb = 0).
    { destruct (nth_in_or_default (hd 0%nat (where_ (Z.eqb label) labs)) bi 0) as [H|H]; auto.
      rewrite Forall_forall in Hb. left. apply Hb. exact H. }
    destruct lg; [congruence|]. simpl length in *. destruct Hs; lia. }
  destruct (sb =? nth 0 bi 0).
  - cbn [rmap fst snd]. rewrite map_app. reflexivity.
  - destruct (assertb (0 <=? sb)); auto. cbn [rbind rmap fst snd].
    rewrite (mono_nth _ _ 0 0 Hsb), map_app. reflexivity.
Qed.
Lemma threads_length : forall E b (w : world E) labs w', In (-1) b -> (forall x, In x b -> -1 <= x) ->
    threads_given_birth_inds b w = (Ok labs, w') -> length labs = length b.
Proof.
  intros E b w labs w' H1 H2 H. destruct (threads_general b H1 H2 E w) as (labs' & w2 & H3 & _ & H4 & _).
  congruence.
Qed.
Lemma mono_process : forall E samples da dw, env_compares E ->
    tr (run_by f g0) (process_samples_array (E := E) samples da dw)
       (process_samples_array (map (samp_by f g0) samples) da dw).
Proof.
  intros E samples da dw HE w. unfold process_samples_array. rewrite mono_sort_samps by auto.
  generalize (sort_samps E samples). clear samples. intros l.
  assert (Hlg : map s_logl (map (samp_by f g0) l) = map f (map s_logl l)) by (rewrite !map_map; auto).
  assert (Hbt : map s_birth (map (samp_by f g0) l) = map f (map s_birth l)) by (rewrite !map_map; auto).
  assert (Hth : map s_theta (map (samp_by f g0) l) = map g0 (map s_theta l)) by (rewrite !map_map; auto).
  rewrite Hlg, Hbt, Hth, map_length.
  assert (Hlen : length (map s_birth l) = length (map s_logl l)) by (rewrite !map_length; auto).
  unfold wbind, wlift. rewrite mono_birth_inds by auto.
  destruct (birth_inds_given_contours (map s_birth l) (map s_logl l) da dw w) as [[bi|e] w1] eqn:Hb; auto.
  destruct (births_returned _ _ _ _ _ _ _ _ Hlen Hb) as (Hl1 & Hon).
  assert (Hne : l <> []).
  { intros ->. unfold birth_inds_given_contours in Hb. winv. unfold birth_loop in *. winv.
}
  assert (Hl2 : length bi = length (map s_logl l)) by congruence.
  assert (Hrange : forall i, (i < length bi)%nat -> -1 <= nth i bi 0 < Z.of_nat (length (map s_logl l))).
  { intros i Hi. rewrite Hl1 in Hi. destruct (Hon i Hi) as [G1 G2].
    destruct (Z.eq_dec (nth i (map s_birth l) 0) (nth 0 (map s_birth l) 0)) as [He|He].
    - rewrite (G1 He). lia.
    - destruct (G2 He). lia. }
  assert (Hm1 : In (-1) bi).
  { assert (H0 : (0 < length bi)%nat) by (rewrite Hl2, map_length; destruct l; [congruence|simpl; lia]).
    destruct (Hon 0%nat ltac:(lia)) as [G1 _]. rewrite <- (G1 eq_refl). apply nth_In. auto. }
  assert (Hge : forall x, In x bi -> -1 <= x < Z.of_nat (length (map s_logl l))).
  { intros x Hx. destruct (In_nth _ _ 0 Hx) as (i & Hi & <-). auto. }
  destruct (threads_given_birth_inds bi w1) as [[labs|e] w2] eqn:Ht; auto.
  pose proof (threads_length _ _ _ _ _ Hm1 (fun x Hx => proj1 (Hge x Hx)) Ht) as Hll.
  destruct (wassert (list_eqb (unique labs) (zrange (length (unique labs)))) w2) as [[u|e] w3]; auto.
  change (@nil (ext * Z)) with (map mm_by []) at 1.
  pose proof (rmap_foldM _ _ _ (fun st : list (ext * Z) * list Z => (map mm_by (fst st), snd st))
                (thread_step (map s_logl l) bi labs) (thread_step (map f (map s_logl l)) bi labs)
                (unique labs) ([], repeat 0 (S (length l)))) as Hfold.
  cbn [fst snd] in Hfold. rewrite Hfold.
  - destruct (foldM (thread_step (map s_logl l) bi labs) (unique labs) ([], repeat 0 (S (length l))))
      as [[tmm delta]|e]; reflexivity.
  - intros [tmm delta] label Hin. cbn [fst snd]. apply mono_thread_step; try congruence.
    + apply (proj1 (in_unique _ _)) in Hin. auto.
    + rewrite Forall_forall. intros x Hx. apply Hge in Hx. lia.
    + intros Hn. apply map_eq_nil in Hn. auto.
Qed.
End Mono.
