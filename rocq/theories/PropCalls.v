(** C95: the arguments with which parallel_apply, parallel_map and
    batch_process_data call the function they are given. *)
From Coq Require Import String.
From Verif Require Import Base ModelRun ModelData ModelParallel ModelCalls Envs ProofBase ProofMonad
     ProofDet Spec SpecRun ProofRun ProofParallel PropCheck PropCombine PropParallel.
Local Open Scope list_scope. Local Open Scope Z_scope.

(** ** parallel_apply *)

(** Each element [x] gives one call, with positional arguments pre, x, args in
    this order and the keywords func_kwargs; the values are returned in the
    order of completion (of the elements if parallel=False). *)
Theorem C95_apply : forall E V B (fv : V) (par : option (sched E)) pw mw tq
    (func : list V -> dict V -> W E B) g xs sized post pre kw w,
    (forall args k w, fst (func args k w) = g args k) -> schedules par (length xs) ->
    (par <> None -> sized = true /\ (forall n, mw = Some n -> 0 < n)) ->
    match fst (snd (apply_call fv par pw mw [] tq func xs sized (Tup post) (Tup pre) kw) w) with
    | Ok ys =>
        Forall2 (fun i y => exists x, nth_error xs i = Some x /\ g (pre ++ x :: post) kw = Ok y)
                (match par with None => seq 0 (length xs) | Some s => s_order s end) ys
    | Raise e => exists x, In x xs /\ g (pre ++ x :: post) kw = Raise e
    end.
Proof.
  intros E V B fv par pw mw tq func g xs sized post pre kw w Hg Hs Hok.
  pose proof (C45_parallel_apply E V B par pw (fun x => func (pre ++ [x] ++ post) kw)
                (fun x => g (pre ++ x :: post) kw) xs w (fun x w => Hg _ _ _) Hs) as [H _].
  unfold apply_call. cbn [snd is_tuple items]. unfold wassert, assertb, wlift, wbind.
  destruct par as [s|].
  - destruct (Hok ltac:(discriminate)) as [-> Hmw].
    replace (pool_ok mw) with true.
    + destruct (fst (parallel_apply (Some s) pw _ xs w)) as [ys|e]; [apply H|exact H].
    + destruct mw as [n|]; auto. simpl. symmetry. apply Z.ltb_lt. auto.
  - destruct (fst (parallel_apply None pw _ xs w)) as [ys|e]; [apply H|exact H].
Qed.
Print Assumptions C95_apply.

(** What is refused before any call is made; nothing is drawn and no warning is
    given.  The length of the iterable and the number of workers matter only
    with parallel=True. *)
Theorem C95_apply_refuses : forall E V B (fv : V) (par : option (sched E)) pw mw rest tq
    (func : list V -> dict V -> W E B) xs sized args pre kw w e,
    (rest <> [] /\ e = TypeError) \/
    (rest = [] /\ (is_tuple args = false \/ is_tuple pre = false) /\ e = AssertionError) \/
    (rest = [] /\ is_tuple args = true /\ is_tuple pre = true /\ par <> None /\
     (exists n, mw = Some n /\ n <= 0) /\ e = ValueError) \/
    (rest = [] /\ is_tuple args = true /\ is_tuple pre = true /\ par <> None /\
     (forall n, mw = Some n -> 0 < n) /\ sized = false /\ e = TypeError) ->
    snd (apply_call fv par pw mw rest tq func xs sized args pre kw) w = (Raise e, w).
Proof.
  intros E V B fv par pw mw rest tq func xs sized args pre kw w e H.
  destruct H as [[H ->]|[(-> & H & ->)|[(-> & H1 & H2 & H3 & (n & -> & H4) & ->)|
                                        (-> & H1 & H2 & H3 & H4 & -> & ->)]]]; unfold apply_call.
  - destruct rest; [congruence|]. reflexivity.
  - cbn [snd]. unfold wassert, wbind, wlift, assertb.
    destruct (is_tuple args); [|reflexivity]. destruct H as [H|H]; [discriminate|]. rewrite H. reflexivity.
  - cbn [snd]. unfold wassert, wbind, wlift, assertb. rewrite H1, H2.
    destruct par; [|congruence]. simpl. replace (0 <? n) with false by (symmetry; apply Z.ltb_ge; lia).
    reflexivity.
  - cbn [snd]. unfold wassert, wbind, wlift, assertb. rewrite H1, H2.
    destruct par; [|congruence]. replace (pool_ok mw) with true; [reflexivity|].
    destruct mw as [n|]; auto. simpl. symmetry. apply Z.ltb_lt. auto.
Qed.
Print Assumptions C95_apply_refuses.

(** The caller's tqdm_kwargs: the key 'leave' is added if it is not there and
    there are no unexpected keywords; nothing else changes. *)
Lemma get_set_same : forall V k (v : V) d, get_key k (set_key k v d) = Some v.
Proof.
  intros V k v. induction d as [|[k' u] t IH]; simpl; [rewrite String.eqb_refl; auto|].
  destruct (String.eqb k k') eqn:H; simpl; rewrite H; auto.
Qed.
Lemma get_set_other : forall V k k0 (v : V) d, k <> k0 -> get_key k (set_key k0 v d) = get_key k d.
Proof.
  intros V k k0 v d Hk. induction d as [|[k' u] t IH]; simpl.
  - destruct (String.eqb k k0) eqn:H; auto. apply String.eqb_eq in H. congruence.
  - destruct (String.eqb k0 k') eqn:H; simpl; auto.
    + apply String.eqb_eq in H. subst k'. destruct (String.eqb k k0) eqn:H; auto.
      apply String.eqb_eq in H. congruence.
    + rewrite IH. auto.
Qed.
Lemma has_get : forall V k (d : dict V), has_key k d = match get_key k d with Some _ => true | None => false end.
Proof.
  intros V k. induction d as [|[k' u] t IH]; simpl; auto. destruct (String.eqb k k'); simpl; auto.
Qed.

Theorem C95_tqdm_kwargs : forall E V B (fv : V) (par : option (sched E)) pw mw rest tq
    (func : list V -> dict V -> W E B) xs sized args pre kw,
    let tq' := fst (apply_call fv par pw mw rest tq func xs sized args pre kw) in
    (rest <> [] -> tq' = tq) /\
    (get_key "leave" tq <> None -> tq' = tq) /\
    (rest = [] -> get_key "leave" tq = None -> get_key "leave" tq' = Some fv /\
       forall k, k <> "leave"%string -> get_key k tq' = get_key k tq).
Proof.
  intros. unfold tq', apply_call. destruct rest as [|s rest]; cbn [fst].
  - rewrite has_get. split; [congruence|]. destruct (get_key "leave" tq) as [v|] eqn:H.
    + split; [auto|]. intros _ ?. discriminate.
    + split; [congruence|]. intros _ _. split; [apply get_set_same|].
      intros k Hk. apply get_set_other. auto.
  - split; [auto|]. split; [auto|]. intros H. discriminate.
Qed.
Print Assumptions C95_tqdm_kwargs.

(** ** parallel_map *)
Lemma heads_some : forall V (ls : list (list V)) hs ts, heads ls = Some (hs, ts) ->
    Forall2 (fun l p => l = fst p :: snd p) ls (combine hs ts) /\ length hs = length ls /\ length ts = length ls.
Proof.
  induction ls as [|[|x t] ls IH]; simpl; intros hs ts H; try discriminate.
  - injection H as <- <-. split; [constructor|auto].
  - destruct (heads ls) as [[hs' ts']|]; [|discriminate]. injection H as <- <-.
    destruct (IH _ _ eq_refl) as (A & B & C). simpl. split; [constructor; auto|]. auto.
Qed.
Lemma heads_none : forall V (ls : list (list V)), heads ls = None -> In [] ls.
Proof.
  induction ls as [|[|x t] ls IH]; simpl; intros H; auto; try discriminate.
  destruct (heads ls) as [[hs' ts']|]; [discriminate|]. auto.
Qed.
Lemma heads_none_inv : forall V (ls : list (list V)), In [] ls -> heads ls = None.
Proof.
  induction ls as [|[|x t] ls IH]; simpl; intros H; auto; try tauto.
  destruct H as [H|H]; [discriminate|]. rewrite IH; auto.
Qed.
Lemma zip_fuel_nth : forall V n (ls : list (list V)) k t,
    nth_error (zip_fuel n ls) k = Some t <->
    (k < n)%nat /\ Forall2 (fun l x => nth_error l k = Some x) ls t.
Proof.
  induction n as [|n IH]; intros ls k t; simpl.
  - split; [destruct k; discriminate|lia].
  - destruct (heads ls) as [[hs ts]|] eqn:Hh.
    + destruct (heads_some _ _ _ _ Hh) as (A & B & C).
      destruct k as [|k]; simpl.
      * assert (Hhs : Forall2 (fun l x => nth_error l 0 = Some x) ls hs).
        { clear - A B C. revert hs ts A B C. induction ls as [|l ls IH]; intros [|h hs] [|t ts] A B C;
            simpl in *; try discriminate; constructor.
          - inversion A; subst. simpl in *. subst. auto.
          - inversion A; subst. apply (IH hs ts); auto. }
        split.
        -- intros H. injection H as <-. split; [lia|auto].
        -- intros [_ H]. f_equal. clear - H Hhs. revert t H. induction Hhs; intros t Ht; inversion Ht; subst; auto.
           f_equal; [cbn in *; congruence|auto].
      * rewrite IH. assert (Hts : Forall2 (fun l x => nth_error l (S k) = Some x) ls t <->
                                  Forall2 (fun l x => nth_error l k = Some x) ts t).
        { clear - A B C. revert hs ts t A B C. induction ls as [|l ls IH]; intros [|h hs] [|u ts] t A B C;
            simpl in *; try discriminate.
          - split; intros H; inversion H; subst; constructor.
          - inversion A; subst. simpl in *.
            split; intros H; inversion H; subst; constructor; auto; apply (IH hs ts); auto. }
        rewrite Hts. split; intros [H1 H2]; split; auto; lia.
    + apply heads_none in Hh. split; [destruct k; discriminate|]. intros [_ H].
      exfalso. clear - Hh H. induction H; simpl in Hh; [auto|]. destruct Hh as [->|Hh]; auto.
      destruct k; discriminate.
Qed.
Lemma zip_nth : forall V (ls : list (list V)) k t,
    nth_error (zip ls) k = Some t <-> ls <> [] /\ Forall2 (fun l x => nth_error l k = Some x) ls t.
Proof.
  intros V [|l ls] k t; unfold zip.
  - split; [destruct k; discriminate|intros [H _]; congruence].
  - rewrite zip_fuel_nth. split; intros [H1 H2]; split; auto; try discriminate.
    inversion H2; subst. apply nth_error_Some. congruence.
Qed.

Lemma Forall2_length_eq : forall A B (R : A -> B -> Prop) l m, Forall2 R l m -> length l = length m.
Proof. induction 1; simpl; auto. Qed.

(** The k-th call has the positional arguments pre followed by the k-th elements
    of the iterables; there are as many calls as the shortest iterable has
    elements; the values are in this order. *)
Theorem C95_map : forall E V B (par : option (sched E)) pw c mw
    (func : list V -> dict V -> W E B) g its pre kw w ys,
    (forall args k w, fst (func args k w) = g args k) -> its <> [] ->
    fst (map_call par pw c mw [] func its pre kw w) = Ok ys ->
    (forall k y, nth_error ys k = Some y ->
       exists t, Forall2 (fun l x => nth_error l k = Some x) its t /\ g (items pre ++ t) kw = Ok y) /\
    (forall l, In l its -> (length ys <= length l)%nat) /\
    (exists l, In l its /\ length l = length ys).
Proof.
  intros E V B par pw c mw func g its pre kw w ys Hg Hits H.
  assert (HF : Forall2 (fun t y => g (items pre ++ t) kw = Ok y) (zip its) ys).
  { assert (Hc : par <> None -> (0 < c)%nat).
    { intros Hp. destruct par as [s|]; [|congruence]. unfold map_call in H.
      destruct (pool_ok mw); [|discriminate]. unfold parallel_map in H.
      destruct (c =? 0)%nat eqn:Hc; [discriminate|]. apply Nat.eqb_neq in Hc. lia. }
    pose proof (C45_parallel_map E (list V) B par pw c (fun t => func (items pre ++ t) kw)
                  (fun t => g (items pre ++ t) kw) (zip its) w (fun x w => Hg _ _ _) Hc) as HM.
    unfold map_call in H. destruct par as [s|].
    - destruct (pool_ok mw); [|discriminate]. rewrite H in HM. exact HM.
    - destruct its; [congruence|]. rewrite H in HM. exact HM. }
  assert (Hlen : length (zip its) = length ys) by (eapply Forall2_length_eq; eauto).
  split; [|split].
  - intros k y Hy. destruct (nth_error (zip its) k) as [t|] eqn:Ht.
    + exists t. split; [apply zip_nth in Ht; tauto|].
      clear - HF Hy Ht. revert k Hy Ht. induction HF; intros [|k] Hy Ht; try discriminate; simpl in *.
      * congruence.
      * eauto.
    + apply nth_error_None in Ht. assert (k < length ys)%nat by (apply nth_error_Some; congruence). lia.
  - intros l Hl. destruct ys as [|y0 ys]; [simpl; lia|].
    destruct (nth_error (zip its) (length ys)) as [t|] eqn:Ht.
    2: { apply nth_error_None in Ht. simpl in Hlen. lia. }
    apply zip_nth in Ht as [_ Ht].
    assert (Hn : nth_error l (length ys) <> None).
    { clear - Ht Hl. induction Ht; simpl in Hl; [tauto|]. destruct Hl as [<-|Hl]; auto. congruence. }
    apply nth_error_Some in Hn. simpl. lia.
  - destruct (Forall_dec (fun l : list V => (length l <> length ys)%nat)
                (fun l => match Nat.eq_dec (length l) (length ys) with
                          | left e => right (fun H => H e) | right n => left n end) its) as [F|F].
    + exfalso. assert (Hall : forall l, In l its -> (length ys < length l)%nat).
      { intros l Hl. rewrite Forall_forall in F. specialize (F l Hl).
        destruct (le_lt_dec (length l) (length ys)) as [Hle|]; auto.
        exfalso. assert (HL : (length l < length ys)%nat) by lia. clear F Hle.
        destruct (nth_error (zip its) (length l)) as [t|] eqn:Ht.
        2: { apply nth_error_None in Ht. lia. }
        apply zip_nth in Ht as [_ Ht].
        assert (Hn : nth_error l (length l) <> None).
        { remember (length l) as n. clear - Ht Hl. induction Ht; simpl in Hl; [tauto|].
          destruct Hl as [<-|Hl]; auto. congruence. }
        apply nth_error_Some in Hn. lia. }
      assert (Hex : exists t, Forall2 (fun l x => nth_error l (length ys) = Some x) its t).
      { generalize dependent (length ys). intros n. clear. intros _ _ Hall. induction its as [|l its IH].
        - exists []. constructor.
        - destruct IH as [t Ht]; [intros; apply Hall; right; auto|].
          destruct (nth_error l n) as [x|] eqn:Hx.
          + exists (x :: t). constructor; auto.
          + apply nth_error_None in Hx. specialize (Hall l (or_introl eq_refl)). lia. }
      destruct Hex as [t Ht].
      assert (Hz : nth_error (zip its) (length ys) = Some t) by (apply zip_nth; auto).
      assert (length ys < length (zip its))%nat by (apply nth_error_Some; congruence). lia.
    + apply neg_Forall_Exists_neg in F.
      * apply Exists_exists in F as [l [H1 H2]]. exists l. split; auto.
        destruct (Nat.eq_dec (length l) (length ys)); tauto.
      * intros l. destruct (Nat.eq_dec (length l) (length ys)); [right; tauto|left; auto].
Qed.
Print Assumptions C95_map.

(** If an element fails, so does the whole call, with the error of the first such
    element. *)
Theorem C95_map_raises : forall E V B (par : option (sched E)) pw c mw
    (func : list V -> dict V -> W E B) g its pre kw w e,
    (forall args k w, fst (func args k w) = g args k) -> its <> [] ->
    (par <> None -> (0 < c)%nat /\ (forall n, mw = Some n -> 0 < n)) ->
    fst (map_call par pw c mw [] func its pre kw w) = Raise e ->
    exists k t, Forall2 (fun l x => nth_error l k = Some x) its t /\ g (items pre ++ t) kw = Raise e /\
      forall k' t', (k' < k)%nat -> Forall2 (fun l x => nth_error l k' = Some x) its t' ->
                    exists v, g (items pre ++ t') kw = Ok v.
Proof.
  intros E V B par pw c mw func g its pre kw w e Hg Hits Hok H.
  pose proof (C45_parallel_map E (list V) B par pw c (fun t => func (items pre ++ t) kw)
                (fun t => g (items pre ++ t) kw) (zip its) w (fun x w => Hg _ _ _)
                (fun Hp => proj1 (Hok Hp))) as HM.
  assert (HR : fst (parallel_map par pw c (fun t => func (items pre ++ t) kw) (zip its) w) = Raise e).
  { unfold map_call in H. destruct par as [s|].
    - destruct (Hok ltac:(discriminate)) as [_ Hmw]. replace (pool_ok mw) with true in H; [auto|].
      destruct mw as [n|]; auto. simpl. symmetry. apply Z.ltb_lt. auto.
    - destruct its; [congruence|]. auto. }
  rewrite HR in HM. destruct HM as (l1 & t & l2 & HZ & Ht & Hb).
  exists (length l1), t. split; [|split; [auto|]].
  - apply (zip_nth V its (length l1) t). rewrite HZ, nth_error_app2, Nat.sub_diag by lia. reflexivity.
  - intros k' t' Hk' Hf. apply Hb. assert (Hz : nth_error (zip its) k' = Some t') by (apply zip_nth; auto).
    rewrite HZ, nth_error_app1 in Hz by auto. eapply nth_error_In; eauto.
Qed.
Print Assumptions C95_map_raises.

(** Refusals of parallel_map.  Without any iterable it raises TypeError if
    parallel=False, and returns an empty list if parallel=True. *)
Theorem C95_map_refuses : forall E V B (par : option (sched E)) pw c mw rest
    (func : list V -> dict V -> W E B) its pre kw w,
    (rest <> [] -> map_call par pw c mw rest func its pre kw w = (Raise TypeError, w)) /\
    (rest = [] -> par <> None -> (exists n, mw = Some n /\ n <= 0) \/ c = 0%nat ->
     map_call par pw c mw rest func its pre kw w = (Raise ValueError, w)) /\
    (rest = [] -> its = [] -> par = None ->
     fst (map_call par pw c mw rest func its pre kw w) = Raise TypeError) /\
    (rest = [] -> its = [] -> par <> None -> (0 < c)%nat -> (forall n, mw = Some n -> 0 < n) ->
     map_call par pw c mw rest func its pre kw w = (Ok [], w)).
Proof.
  intros. split; [|split; [|split]].
  - intros H. destruct rest; [congruence|reflexivity].
  - intros -> Hp H. unfold map_call. destruct par; [|congruence].
    destruct (pool_ok mw) eqn:Hm; [|reflexivity]. destruct H as [(n & -> & Hn)| ->]; [|reflexivity].
    simpl in Hm. apply Z.ltb_lt in Hm. lia.
  - intros -> -> ->. unfold map_call, wbind. destruct pw; reflexivity.
  - intros -> -> Hp Hc Hm. unfold map_call. destruct par; [|congruence].
    replace (pool_ok mw) with true.
    + unfold parallel_map. destruct (c =? 0)%nat eqn:H; [apply Nat.eqb_eq in H; lia|]. reflexivity.
    + destruct mw as [n|]; auto. simpl. symmetry. apply Z.ltb_lt. auto.
Qed.
Print Assumptions C95_map_refuses.

(** ** batch_process_data *)
Lemma del_set : forall V k (v : V) d, del_key k (set_key k v d) = del_key k d.
Proof.
  intros V k v d. unfold del_key. induction d as [|[k' u] t IH]; simpl.
  - rewrite String.eqb_refl. reflexivity.
  - destruct (String.eqb k k') eqn:H; simpl; rewrite H; simpl; auto. rewrite IH. auto.
Qed.
Lemma get_del_other : forall V k k0 (d : dict V), k <> k0 -> get_key k (del_key k0 d) = get_key k d.
Proof.
  intros V k k0 d Hk. unfold del_key. induction d as [|[k' u] t IH]; simpl; auto.
  destruct (String.eqb k0 k') eqn:H; simpl; [|rewrite IH; auto].
  apply String.eqb_eq in H. subst k'. destruct (String.eqb k k0) eqn:H; auto.
  apply String.eqb_eq in H. congruence.
Qed.
Lemma get_del_same : forall V k (d : dict V), get_key k (del_key k d) = None.
Proof.
  intros V k d. unfold del_key. induction d as [|[k' u] t IH]; simpl; auto.
  destruct (String.eqb k k') eqn:H; simpl; auto. rewrite H. auto.
Qed.

(** process_func is called with the root, base_dir, and the caller's keywords
    without errors_to_handle: which errors are handled is decided by the
    argument errors_to_handle alone (none, if it is not given).  Otherwise the
    function is that of C15 - C17. *)
Theorem C95_batch : forall E V (u : V) handles (par : option (sched E)) pw pf bd fkw eth roots,
    (forall d k, fkw = Some d -> In k ["root"; "base_dir"; "process_func"]%string -> get_key k d = None) ->
    exists d, get_key "errors_to_handle" d = None /\
      (forall k, k <> "errors_to_handle"%string ->
         get_key k d = match fkw with Some d0 => get_key k d0 | None => None end) /\
      forall w, snd (batch_call u handles par pw pf bd fkw eth roots) w =
        batch_process_data par pw (fun z => pf z bd d)
          (handles (match eth with Some v => v | None => u end)) roots w.
Proof.
  intros E V u handles par pw pf bd fkw eth roots Hk.
  set (d0 := match fkw with Some d => d | None => [] end).
  set (e := match eth with Some v => v | None => u end).
  assert (Hd0 : forall k, In k ["root"; "base_dir"; "process_func"]%string -> get_key k d0 = None).
  { intros k Hi. unfold d0. destruct fkw as [d|]; [eapply Hk; eauto|reflexivity]. }
  exists (del_key "errors_to_handle" d0).
  split; [apply get_del_same|]. split.
  - intros k Hne. rewrite get_del_other by auto. unfold d0. destruct fkw; reflexivity.
  - intros w. unfold batch_call, batch_process_data. fold d0 e. cbn [snd].
    assert (HF : helper_call u handles pf bd (set_key "errors_to_handle" e d0) =
                 process_error_helper (fun z => pf z bd (del_key "errors_to_handle" d0)) (handles e)).
    { unfold helper_call. rewrite !has_get, !get_set_other by discriminate.
      rewrite !Hd0 by (simpl; tauto). cbn [orb]. rewrite get_set_same, del_set. reflexivity. }
    rewrite HF. reflexivity.
Qed.
Print Assumptions C95_batch.

(** A keyword called root, base_dir or process_func makes every call fail, with
    an error which is not handled. *)
Theorem C95_batch_clash : forall E V (u : V) handles (par : option (sched E)) pw pf bd d eth roots k w,
    In k ["root"; "base_dir"; "process_func"]%string -> get_key k d <> None ->
    roots <> [] -> schedules par (length roots) ->
    fst (snd (batch_call u handles par pw pf bd (Some d) eth roots) w) = Raise TypeError.
Proof.
  intros E V u handles par pw pf bd d eth roots k w Hk Hd Hr Hs.
  set (e := match eth with Some v => v | None => u end).
  assert (HF : forall z w1, helper_call u handles pf bd (set_key "errors_to_handle" e d) z w1 = (Raise TypeError, w1)).
  { intros z w1. unfold helper_call. rewrite !has_get, !get_set_other by discriminate.
    destruct Hk as [<-|[<-|[<-|[]]]].
    - destruct (get_key "root" d); [reflexivity|congruence].
    - destruct (get_key "base_dir" d); [|congruence]. destruct (get_key "root" d); reflexivity.
    - destruct (get_key "process_func" d); [|congruence].
      destruct (get_key "root" d); [reflexivity|]. destruct (get_key "base_dir" d); reflexivity. }
  unfold batch_call. fold e. cbn [snd].
  assert (HP : fst (parallel_apply par pw (helper_call u handles pf bd (set_key "errors_to_handle" e d)) roots w)
               = Raise TypeError).
  { destruct (C45_parallel_apply E Z item par pw (helper_call u handles pf bd (set_key "errors_to_handle" e d))
                (fun _ => Raise TypeError) roots w (fun z w1 => f_equal fst (HF z w1)) Hs) as [H _].
    destruct (fst (parallel_apply par pw _ roots w)) as [ys|e0].
    - destruct H as [_ (zs & _ & HZ)]. destruct roots; [congruence|]. inversion HZ. discriminate.
    - destruct H as (x & _ & He). congruence. }
  unfold wbind. destruct (parallel_apply par pw _ roots w) as [[ys|e0] w1]; cbn [fst] in HP; [discriminate|].
  cbn [fst]. congruence.
Qed.
Print Assumptions C95_batch_clash.

(** The caller's func_kwargs is changed: it has a key errors_to_handle
    afterwards ... *)
Theorem C95_func_kwargs : forall E V (u : V) handles (par : option (sched E)) pw pf bd fkw eth roots,
    match fkw, fst (batch_call u handles par pw pf bd fkw eth roots) with
    | None, None => True
    | Some d, Some d' =>
        get_key "errors_to_handle" d' = Some (match eth with Some v => v | None => u end) /\
        forall k, k <> "errors_to_handle"%string -> get_key k d' = get_key k d
    | _, _ => False
    end.
Proof.
  intros. unfold batch_call. destruct fkw as [d|]; cbn [fst]; [|auto].
  split; [apply get_set_same|]. intros. apply get_set_other. auto.
Qed.
Print Assumptions C95_func_kwargs.

Theorem C95_func_kwargs_kept_refuted :
  ~ forall E V (u : V) handles (par : option (sched E)) pw pf bd fkw eth roots,
      fst (batch_call u handles par pw pf bd fkw eth roots) = fkw.
Proof.
  intros H.
  specialize (H (script_env []) Z 0 (fun _ _ => false) None false (fun _ _ _ => wraise ValueError) 0
                (Some []) None []). discriminate.
Qed.
Print Assumptions C95_func_kwargs_kept_refuted.

(** ... which makes no difference to another batch with the same dictionary. *)
Theorem C95_batch_again : forall E V (u : V) handles (par par' : option (sched E)) pw pw' pf pf' bd bd' d eth eth' roots roots' w d',
    fst (batch_call u handles par pw pf bd (Some d) eth roots) = Some d' ->
    snd (batch_call u handles par' pw' pf' bd' (Some d') eth' roots') w =
    snd (batch_call u handles par' pw' pf' bd' (Some d) eth' roots') w.
Proof.
  intros E V u handles par par' pw pw' pf pf' bd bd' d eth eth' roots roots' w d' H.
  unfold batch_call in H. cbn [fst] in H. injection H as <-.
  assert (HS : forall (a b : V) l, set_key "errors_to_handle" a (set_key "errors_to_handle" b l) =
                                   set_key "errors_to_handle" a l).
  { intros a b l. induction l as [|[k v] t IH]; cbn [set_key].
    - rewrite String.eqb_refl. reflexivity.
    - destruct (String.eqb "errors_to_handle" k) eqn:Hk; cbn [set_key]; rewrite Hk; auto. rewrite IH. auto. }
  unfold batch_call. cbn [snd]. rewrite HS. reflexivity.
Qed.
Print Assumptions C95_batch_again.

(** ** Examples: a function which returns its arguments. *)
Definition echo {E} : list Z -> dict Z -> W E (list Z * dict Z) := fun a k => wret (a, k).
Definition sch (order : list nat) : sched (script_env []) := @mkSched (script_env []) order (fun _ => []).
Definition v0 : world (script_env []) := @mkW (script_env []) [] [].
Example C95_apply_example :
  apply_call 0 (Some (sch [1; 0]%nat)) true (Some 2) [] [] echo [7; 8] true (Tup [30; 31]) (Tup [10])
    [("p"%string, 5)] = ([("leave"%string, 0)],
     snd (apply_call 0 (Some (sch [1; 0]%nat)) true (Some 2) [] [] echo [7; 8] true (Tup [30; 31]) (Tup [10])
    [("p"%string, 5)])) /\
  snd (apply_call 0 (Some (sch [1; 0]%nat)) true (Some 2) [] [] echo [7; 8] true (Tup [30; 31]) (Tup [10])
    [("p"%string, 5)]) v0 =
  (Ok [([10; 8; 30; 31], [("p"%string, 5)]); ([10; 7; 30; 31], [("p"%string, 5)])], v0).
Proof. split; vm_compute; reflexivity. Qed.
Example C95_map_example :
  map_call (Some (sch [])) true 2 None [] echo [[1; 2; 3; 4]; [5; 6; 7]] (Seq [9]) [] v0 =
  (Ok [([9; 1; 5], []); ([9; 2; 6], []); ([9; 3; 7], [])], v0) /\
  map_call None false 2 None [] echo [[1; 2; 3; 4]; [5; 6; 7]] (Seq [9]) [] v0 =
  (Ok [([9; 1; 5], []); ([9; 2; 6], []); ([9; 3; 7], [])], v0).
Proof. split; vm_compute; reflexivity. Qed.
Definition pf_run (z bd : Z) : run :=
  mkRun [1] [[bd]] [1] (Some [0]) (Some [(NInf, 1)]) (Some (mkOut None None (Some z) [])) None.
(** Fails for the root which is the value of one of the keywords. *)
Definition pf {E} (z bd : Z) (d : dict Z) : W E run :=
  if existsb (fun p => snd p =? z) d then wraise OSError else wret (pf_run z bd).
(** The keyword errors_to_handle of func_kwargs (5, which would make root 5
    fail) is replaced and does not reach the function. *)
Example C95_batch_example :
  let '(d, m) := batch_call 0 (fun v e => v =? 1) None false pf 40
                   (Some [("errors_to_handle"%string, 5); ("bad"%string, 6)]) (Some 1) [5; 6] in
  d = Some [("errors_to_handle"%string, 1); ("bad"%string, 6)] /\
  m v0 = (Ok ([mkMsg OSError 1 2 (Some [1%nat])], [pf_run 5 40]), v0).
Proof. split; vm_compute; reflexivity. Qed.
Example C95_clash_example :
  fst (snd (batch_call 0 (fun v e => true) None false pf 40 (Some [("root"%string, 6)]) (Some 1) [5; 6]) v0)
  = Raise TypeError.
Proof. vm_compute. reflexivity. Qed.
