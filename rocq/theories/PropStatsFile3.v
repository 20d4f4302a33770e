(** C50: exactly the files which say something are read, errors for all other
    files, and the layout of the file written. *)
From Coq Require Import List String Ascii Bool ZArith Lia.
From Verif Require Import Base ProofBase ModelNames ProofNames ModelStatsFile ProofStatsFile PropStatsFile PropStatsFile2.
Import ListNotations.
Local Open Scope list_scope.
Local Open Scope nat_scope.

(** Every file has lines. *)
Lemma lines_exist : forall file, exists lines, lines_of file lines.
Proof.
  assert (H : forall n file, length file <= n -> exists lines, lines_of file lines).
  { induction n as [|n IH]; intros file Hn.
    - destruct file; [|cbn in Hn; lia]. exists []. split; [intros l []|]. left. reflexivity.
    - destruct (in_dec ascii_dec line_end file) as [Hi|Hi].
      + assert (Hs : exists a b, file = a ++ line_end :: b /\ ~ In line_end a).
        { clear -Hi. induction file as [|c t IH]; [destruct Hi|]. destruct (ascii_dec c line_end) as [->|Hc].
          - exists [], t. split; auto.
          - destruct IH as (a & b & -> & Ha); [destruct Hi; congruence|]. exists (c :: a), b. split; auto.
            intros [E|E]; congruence. }
        destruct Hs as (a & b & -> & Ha). rewrite app_length in Hn. cbn in Hn.
        destruct (IH b ltac:(lia)) as (lines & Hl & Hf). exists (a :: lines). split.
        * intros l [<-|Hl']; auto.
        * destruct Hf as [->|(front & l & -> & Hne & ->)].
          -- left. cbn. rewrite <- app_assoc. reflexivity.
          -- right. exists (a :: front), l. split; auto. split; auto. cbn. rewrite <- !app_assoc. reflexivity.
      + destruct file as [|c t].
        * exists []. split; [intros l []|]. left. reflexivity.
        * exists [c :: t]. split; [intros l [<-|[]]; auto|]. right. exists [], (c :: t). split; auto. split; [discriminate|auto]. }
  intros file. apply (H (length file)). auto.
Qed.

Lemma Forall2_nth_r : forall A B (R : A -> B -> Prop) a b k y, Forall2 R a b -> nth_error b k = Some y ->
    exists x, nth_error a k = Some x /\ R x y.
Proof.
  intros A B R a b k y H. revert k. induction H as [|u v a b Huv H IH]; intros k Hk; [destruct k; discriminate|].
  destruct k as [|k]; cbn in *; [injection Hk as <-; eauto|auto].
Qed.
Lemma as_line_split : forall l l', as_line l l' -> words_are l (split_ws l').
Proof. intros l l' H. pose proof (split_are l) as Hw. rewrite (as_line_words _ _ _ H Hw). exact Hw. Qed.
Lemma get_inv : forall A (l : list A) k x, get l k = Ok x -> nth_error l k = Some x.
Proof. intros A l k x H. unfold get in H. destruct (nth_error l k); congruence. Qed.
Lemma value_inv : forall A (o : option A) x, value o = Ok x -> o = Some x.
Proof. intros A [y|] x H; cbn in H; congruence. Qed.
Lemma get_line : forall lines raw k l, Forall2 as_line lines raw -> get raw k = Ok l -> line_words lines k (split_ws l).
Proof.
  intros lines raw k l H Hg. apply get_inv in Hg. destruct (Forall2_nth_r _ _ _ _ _ _ _ H Hg) as (x & Hx & Ha).
  exists x. split; auto. apply as_line_split. auto.
Qed.
Lemma bind_ok : forall A B (m : res A) (k : A -> res B) b, rbind m k = Ok b -> exists a, m = Ok a /\ k a = Ok b.
Proof. intros A B [a|e] k b H; cbn in H; [eauto|discriminate]. Qed.
Ltac step H x Hx := apply bind_ok in H; destruct H as (x & Hx & H).
Lemma word1 : forall l w, word l 1 = Ok w -> exists a ws, split_ws l = a :: w :: ws.
Proof.
  intros l w H. unfold word in H. apply get_inv in H. destruct (split_ws l) as [|a [|b ws]]; cbn in H; try discriminate.
  injection H as ->. eauto.
Qed.

Lemma starts_log : forall l l', as_line l l' -> text_eqb (firstn 5 l') (la "log(Z") = true -> exists t, l = la "log(Z" ++ t.
Proof.
  intros l l' [->|[-> _]] E; apply text_eqb_spec in E.
  - destruct (Nat.leb_spec 5 (length l)) as [H5|H5].
    + rewrite firstn_app in E. replace (5 - length l) with 0 in E by lia. rewrite firstn_O, app_nil_r in E.
      exists (skipn 5 l). rewrite <- E. symmetry. apply firstn_skipn.
    + exfalso. assert (Hin : In newline (la "log(Z")).
      { rewrite <- E. rewrite firstn_app. apply in_or_app. right. change line_end with newline.
        destruct (5 - length l) as [|k] eqn:E5; [lia|]. left. auto. }
      cbn in Hin. intuition discriminate.
  - exists (skipn 5 l). rewrite <- E. symmetry. apply firstn_skipn.
Qed.
Lemma not_log : forall l l', as_line l l' -> text_eqb (firstn 5 l') (la "log(Z") = false -> forall t, l <> la "log(Z" ++ t.
Proof.
  intros l l' H E t ->. assert (firstn 5 l' = la "log(Z") by (destruct H as [->|[-> _]]; reflexivity).
  rewrite H0, text_eqb_refl in E. discriminate.
Qed.
Lemma after_equals_inv : forall l x, after_equals l = Some x ->
    exists a b, l = a ++ "="%char :: b /\ ~ In "="%char a /\ x = until_newline b.
Proof.
  induction l as [|c t IH]; intros x H; cbn in H; [discriminate|]. destruct (Ascii.eqb_spec c "="%char) as [->|Hc].
  - injection H as <-. exists [], t. auto.
  - destruct (IH x H) as (a & b & -> & Ha & ->). exists (c :: a), b. split; auto. split; auto. intros [E|E]; congruence.
Qed.
Lemma line_equals : forall l l' t x, as_line l l' -> ~ In newline l -> l = la "log(Z" ++ t -> after_equals l' = Some x ->
    exists a, l = la "log(Z" ++ a ++ "="%char :: x /\ ~ In "="%char a.
Proof.
  intros l l' t x H Hn -> Hx.
  assert (Hq : ~ In "="%char (la "log(Z")) by (cbn; intuition discriminate).
  assert (Hnt : ~ In newline t) by (intros Hi; apply Hn, in_or_app; auto).
  destruct H as [->|[-> _]]; rewrite <- ?app_assoc, after_equals_skip in Hx by auto.
  - destruct (after_equals_inv _ _ Hx) as (a & b & Hab & Ha & ->).
    destruct b as [|c b _] using rev_ind.
    + apply app_inj_tail in Hab as [_ E]. discriminate.
    + rewrite app_comm_cons, app_assoc in Hab. apply app_inj_tail in Hab as [-> <-].
      exists a. split; auto. do 3 f_equal. change line_end with newline. symmetry. apply until_newline_end.
      intros Hi. apply Hnt, in_or_app. right. right. auto.
  - destruct (after_equals_inv _ _ Hx) as (a & b & -> & Ha & ->). exists a. split; auto. do 3 f_equal. symmetry.
    apply until_newline_id. intros Hi. apply Hnt, in_or_app. right. right. auto.
Qed.
Lemma word02 : forall l w0 w2, word l 0 = Ok w0 -> word l 2 = Ok w2 -> exists w1 ws, split_ws l = w0 :: w1 :: w2 :: ws.
Proof.
  intros l w0 w2 H0 H2. unfold word in *. apply get_inv in H0. apply get_inv in H2.
  destruct (split_ws l) as [|a [|b [|c ws]]]; cbn in *; try discriminate. injection H0 as ->. injection H2 as ->. eauto.
Qed.
Lemma read_clusters_inv : forall F raw lines zs es, Forall2 as_line lines raw -> (forall l, In l lines -> ~ In newline l) ->
    @read_clusters F raw = Ok (zs, es) ->
    exists ls rest, lines = ls ++ rest /\ clusters ls zs es /\
      (rest = [] \/ exists line after, rest = line :: after /\ forall t, line <> la "log(Z" ++ t).
Proof.
  intros F raw lines zs es H. revert zs es. induction H as [|l l' lines raw Hl H IH]; intros zs es Hn Hr.
  - cbn in Hr. injection Hr as <- <-. exists [], []. split; auto. split; [constructor|auto].
  - cbn [read_clusters] in Hr. destruct (text_eqb (firstn 5 l') (la "log(Z")) eqn:E; cbn [negb] in Hr.
    + step Hr x Hx. destruct (after_equals l') as [y|] eqn:Ea; [|discriminate]. injection Hx as ->.
      step Hr w0 H0. step Hr z Hz. step Hr w2 H2. step Hr e He. step Hr rest Hrest. destruct rest as [zs' es'].
      injection Hr as <- <-. cbn [fst snd].
      destruct (IH zs' es' (fun x Hx => Hn x (or_intror Hx)) Hrest) as (ls & rest & -> & Hc & Hre).
      exists (l :: ls), rest. split; auto. split; auto. constructor; auto.
      destruct (starts_log _ _ Hl E) as (t & Ht).
      destruct (line_equals _ _ _ _ Hl (Hn l (or_introl eq_refl)) Ht Ea) as (a & Ela & Ha).
      destruct (word02 _ _ _ H0 H2) as (w1 & ws & Hws).
      exists a, x, w0, w1, w2, ws. split; auto. split; auto. split; [apply words_computed; auto|].
      apply value_inv in Hz. apply value_inv in He. auto.
    + injection Hr as <- <-. exists [], (l :: lines). split; auto. split; [constructor|]. right. exists l, lines. split; auto.
      eapply not_log; eauto.
Qed.
Lemma read_params_inv : forall F raw lines ms es, Forall2 as_line lines raw -> @read_params F raw = Ok (ms, es) ->
    parameters lines ms es.
Proof.
  intros F raw lines ms es H. revert ms es. induction H as [|l l' lines raw Hl H IH]; intros ms es Hr.
  - cbn in Hr. injection Hr as <- <-. constructor.
  - cbn [read_params] in Hr. destruct (contains (la "------------------") l') eqn:E.
    + apply dashes_line; auto. apply (contains_line _ _ Hl). auto.
    + assert (Hd : ~ has_dashes l) by (intros Hd; apply (contains_line _ _ Hl) in Hd; congruence).
      step Hr w1 H1. step Hr m Hm. step Hr w3 H3. step Hr e He. step Hr rest Hrest. destruct rest as [ms' es'].
      injection Hr as <- <-. cbn [fst snd]. apply value_inv in Hm. apply value_inv in He.
      unfold word in H1, H3. apply get_inv in H1. apply get_inv in H3.
      pose proof (as_line_split _ _ Hl) as Hw.
      destruct (split_ws l') as [|x0 [|x1 [|x2 [|x3 ws]]]]; cbn in H1, H3; try discriminate.
      injection H1 as ->. injection H3 as ->. eapply one_parameter; eauto.
Qed.
Lemma numbers_inv : forall F ws xs, mapM (fun w => value (@read F w)) ws = Ok xs -> numbers ws xs.
Proof.
  induction ws as [|w ws IH]; intros xs H; cbn in H; [injection H as <-; constructor|].
  step H x Hx. step H y Hy. injection H as <-. constructor; auto. apply value_inv. auto.
Qed.
Lemma integers_inv : forall ws xs, mapM (fun w => value (read_int w)) ws = Ok xs -> integers ws xs.
Proof.
  induction ws as [|w ws IH]; intros xs H; cbn in H; [injection H as <-; constructor|].
  step H x Hx. step H y Hy. injection H as <-. constructor; auto. apply value_inv. auto.
Qed.
Lemma not_integers_inv : forall ws e, mapM (fun w => value (read_int w)) ws = Raise e -> exists w, In w ws /\ read_int w = None.
Proof.
  induction ws as [|w ws IH]; intros e H; cbn in H; [discriminate|].
  destruct (read_int w) as [z|] eqn:E.
  - cbn [value rbind] in H. destruct (mapM _ ws) eqn:Em; [discriminate|]. destruct (IH _ eq_refl) as (v & Hv & Hn).
    exists v. split; auto. right. auto.
  - exists w. split; auto. left. auto.
Qed.
Lemma index_of_inv : forall w l i, index_of w l = Some i -> exists a b, l = a ++ w :: b /\ ~ In w a /\ length a = i.
Proof.
  induction l as [|x l IH]; intros i H; cbn in H; [discriminate|]. destruct (text_eqb x w) eqn:E.
  - injection H as <-. apply text_eqb_spec in E as ->. exists [], l. auto.
  - destruct (index_of w l) as [j|]; [|discriminate]. injection H as <-. destruct (IH j eq_refl) as (a & b & -> & Ha & <-).
    exists (x :: a), b. split; auto. split; auto. intros [->|Hi]; [rewrite text_eqb_refl in E; discriminate|auto].
Qed.
Lemma one_or_list_inv : forall F (xs : list (num F)),
    if length xs =? 1 then exists x, xs = [x] /\ one_or_list xs = ANum x else one_or_list xs = AList xs.
Proof. intros F [|x [|y xs]]; cbn; auto. exists x. auto. Qed.

(** Only what the lines of a file say is read. *)
Theorem C50_only : forall F (s : store) root base (o : stats F),
    process_polychord_stats root base s = Ok o ->
    st_root o = root /\ st_base o = base /\
    exists file lines, s (path_join base root ++ la ".stats") = Some file /\ lines_of file lines /\ file_says lines o.
Proof.
  intros F s root base o H. unfold process_polychord_stats in H.
  destruct (s (path_join base root ++ la ".stats")) as [file|] eqn:Es; [|discriminate].
  destruct (lines_exist file) as (lines & Hlines). pose proof (proj1 Hlines) as Hnl. pose proof (readlines_of _ _ Hlines) as Hl.
  set (raw := readlines file) in *. cbv zeta in H.
  assert (Hlen : length raw = length lines) by (clear -Hl; induction Hl; cbn; auto).
  step H l8 G8. step H w2 W2. step H logZ Hz. step H w4 W4. step H logZerr He. step H cl Hc. destruct cl as [zs es].
  step H nposterior Hp. step H nequals Hq. step H ndead Hd. step H nlive Hv.
  step H l24 G24. step H l25 G25. step H i Hi. step H av Hav. step H avs Havs. step H pm Hpm. injection H as <-.
  cbn [st_root st_base]. split; auto. split; auto. exists file, lines. split; auto. split; auto.
  set (n := length zs) in *.
  assert (Hint : forall k x, (let! l := get raw (k + n) in let! w := word l 1 in value (read_int w)) = Ok x ->
            exists a w ws, line_words lines (k + n) (a :: w :: ws) /\ read_int w = Some x).
  { intros k x Hk. step Hk l Gl. step Hk w Gw. apply value_inv in Hk. destruct (word1 _ _ Gw) as (a & ws & Hws).
    exists a, w, ws. split; auto. rewrite <- Hws. eapply get_line; eauto. }
  assert (Hpre : exists before ls line after, lines = before ++ ls ++ line :: after /\ length before = 14 /\
            (forall t, line <> la "log(Z" ++ t) /\ clusters ls zs es /\ n = length ls).
  { destruct (read_clusters_inv F (skipn 14 raw) (skipn 14 lines) zs es) as (ls & rest & Hs & Hcl & Hrest).
    - apply Forall2_skip. auto.
    - intros l Hin. apply Hnl. rewrite <- (firstn_skipn 14 lines). apply in_or_app. auto.
    - exact Hc.
    - assert (Hn : n = length ls) by (unfold n; clear -Hcl; induction Hcl; cbn; auto).
      assert (H25 : 25 + n < length lines).
      { destruct (get_line _ _ _ _ Hl G25) as (x & Hx & _). apply nth_error_Some. congruence. }
      destruct Hrest as [->|(line & after & -> & Hline)].
      + exfalso. rewrite app_nil_r in Hs. apply (f_equal (@length _)) in Hs. rewrite skipn_length in Hs. lia.
      + exists (firstn 14 lines), ls, line, after. split; [rewrite <- Hs; symmetry; apply firstn_skipn|].
        split; [apply firstn_length_le; lia|]. auto. }
  constructor; cbn [st_logZ st_logZerr st_logZs st_logZerrs st_ncluster st_nposterior st_nequals st_ndead st_nlive st_nlike
                    st_avnlike st_avnlikeslice st_means st_errs]; fold n.
  - unfold word in W2, W4. apply get_inv in W2. apply get_inv in W4. pose proof (get_line _ _ _ _ Hl G8) as Hw.
    destruct (split_ws l8) as [|x0 [|x1 [|x2 [|x3 [|x4 ws]]]]]; cbn in W2, W4; try discriminate.
    injection W2 as ->. injection W4 as ->. apply value_inv in Hz. apply value_inv in He.
    exists x0, x1, w2, x3, w4, ws. auto.
  - destruct Hpre as (before & ls & line & after & E1 & E2 & E3 & E4 & E5). exists before, ls, line, after. rewrite E5. auto 10.
  - apply Hint. auto.
  - apply Hint. auto.
  - apply Hint. auto.
  - apply Hint. auto.
  - exists (split_ws l24). split; [eapply get_line; eauto|].
    destruct (mapM (fun w => value (read_int w)) (tl (split_ws l24))) as [zz|e] eqn:Em.
    + apply integers_inv in Em. destruct zz as [|z0 [|z1 zz]].
      * right. left. exists []. split; [cbn; lia|]. auto.
      * left. exists z0. auto.
      * right. left. exists (z0 :: z1 :: zz). split; [cbn; lia|]. auto.
    + right. right. split; auto. eapply not_integers_inv; eauto.
  - apply value_inv in Hi. destruct (index_of_inv _ _ _ Hi) as (ws & us & Hws & Hnb & <-).
    pose proof (get_line _ _ _ _ Hl G25) as Hw. rewrite Hws in *. destruct (bracket_words ws us) as [B1 B2].
    rewrite B1 in Hav. rewrite B2 in Havs. exists ws, us, av, avs. split; auto. split; auto.
    split; [apply numbers_inv; auto|]. split; [apply numbers_inv; auto|].
    split; apply one_or_list_inv.
  - rewrite Hlen in Hpm. destruct (Nat.leb_spec (length lines) (29 + n)) as [Hle|Hlt].
    + destruct (Nat.ltb_spec (29 + n) (length lines)); [lia|]. injection Hpm as <-. auto.
    + destruct (Nat.ltb_spec (29 + n) (length lines)); [|lia]. step Hpm r Hr. injection Hpm as <-. destruct r as [ms es']. cbn [fst snd].
      exists (firstn (29 + n) lines), (skipn (29 + n) lines), ms, es'.
      split; [symmetry; apply firstn_skipn|]. split; [apply firstn_length_le; lia|].
      split; auto. eapply read_params_inv; eauto. apply Forall2_skip. auto.
Qed.
Print Assumptions C50_only.
Example C50_only_example : forall s, s (la "chains/run.stats") = Some a_file ->
    exists o, @process_polychord_stats int_floats (la "run") (la "chains") s = Ok o /\ st_nlike o = CNan.
Proof. intros s H. exists a_stats. unfold process_polychord_stats. change (path_join (la "chains") (la "run") ++ la ".stats") with (la "chains/run.stats"). rewrite H. split; reflexivity. Qed.

(** ** Errors *)
Lemma value_err : forall A (o : option A) e, value o = Raise e -> e = ValueError.
Proof. intros A [x|] e H; cbn in H; congruence. Qed.
Lemma get_err : forall A (l : list A) k e, get l k = Raise e -> e = IndexError.
Proof. intros A l k e H. unfold get in H. destruct (nth_error l k); congruence. Qed.
Definition index_or_value {A} (m : res A) : Prop := forall e, m = Raise e -> e = IndexError \/ e = ValueError.
Lemma iv_bind : forall A B (m : res A) (k : A -> res B), index_or_value m -> (forall a, index_or_value (k a)) -> index_or_value (rbind m k).
Proof. intros A B [a|e0] k Hm Hk e H; cbn in H; [eapply Hk; eauto|]. apply Hm. congruence. Qed.
Lemma iv_ok : forall A (x : A), index_or_value (Ok x).
Proof. intros A x e H. discriminate. Qed.
Lemma iv_value : forall A (o : option A), index_or_value (value o).
Proof. intros A o e H. right. eapply value_err; eauto. Qed.
Lemma iv_get : forall A (l : list A) k, index_or_value (get l k).
Proof. intros A l k e H. left. eapply get_err; eauto. Qed.
Lemma iv_mapM : forall A B (f : A -> res B) l, (forall x, index_or_value (f x)) -> index_or_value (mapM f l).
Proof.
  intros A B f l Hf. induction l as [|x l IH]; cbn [mapM]; [apply iv_ok|].
  apply iv_bind; auto. intros a. apply iv_bind; auto. intros b. apply iv_ok.
Qed.
Lemma iv_clusters : forall F raw, index_or_value (@read_clusters F raw).
Proof.
  intros F raw. induction raw as [|l raw IH]; cbn [read_clusters]; [apply iv_ok|].
  destruct (negb _); [apply iv_ok|]. apply iv_bind.
  { destruct (after_equals l); [apply iv_ok|]. intros e H. left. congruence. }
  intros tail. repeat (apply iv_bind; [first [apply iv_get|apply iv_value|exact IH]|intros ?]). apply iv_ok.
Qed.
Lemma iv_params : forall F raw, index_or_value (@read_params F raw).
Proof.
  intros F raw. induction raw as [|l raw IH]; cbn [read_params]; [apply iv_ok|].
  destruct (contains _ _); [exact IH|].
  repeat (apply iv_bind; [first [apply iv_get|apply iv_value|exact IH]|intros ?]). apply iv_ok.
Qed.
(** The errors of a file which exists. *)
Theorem C50_errors : forall F (s : store) root base file lines,
    s (path_join base root ++ la ".stats") = Some file -> lines_of file lines ->
    (forall e, @process_polychord_stats F root base s = Raise e -> e = IndexError \/ e = ValueError) /\
    (length lines <= 8 -> @process_polychord_stats F root base s = Raise IndexError) /\
    (forall ws, line_words lines 8 ws -> length ws <= 2 -> @process_polychord_stats F root base s = Raise IndexError) /\
    (forall a b w ws, line_words lines 8 (a :: b :: w :: ws) -> @read F w = None ->
       @process_polychord_stats F root base s = Raise ValueError) /\
    (forall a b w ws, line_words lines 8 (a :: b :: w :: ws) -> @read F w <> None -> length ws <= 1 ->
       @process_polychord_stats F root base s = Raise IndexError) /\
    (forall a b w c v ws, line_words lines 8 (a :: b :: w :: c :: v :: ws) -> @read F w <> None -> @read F v = None ->
       @process_polychord_stats F root base s = Raise ValueError).
Proof.
  intros F s root base file lines Hs Hl. apply readlines_of in Hl. unfold process_polychord_stats. rewrite Hs.
  set (raw := readlines file) in *. cbv zeta. split.
  { intros e. match goal with |- ?m = _ -> _ => change (m = Raise e -> e = IndexError \/ e = ValueError); enough (H : index_or_value m) by exact (H e) end.
    repeat first [ apply iv_ok
                 | apply iv_bind; [first [apply iv_get|apply iv_value|apply iv_clusters|apply iv_mapM; intros; apply iv_value|idtac]|intros ?]
                 | match goal with |- index_or_value (let '(_, _) := ?p in _) => destruct p end
                 | apply iv_value | apply iv_get ].
    destruct (_ <? _); [|apply iv_ok]. apply iv_bind; [apply iv_params|intros; apply iv_ok]. }
  assert (Hword : forall ws, line_words lines 8 ws -> exists l8, get raw 8 = Ok l8 /\ split_ws l8 = ws) by (intros ws Hw; eapply get_words; eauto).
  split.
  { intros H8. assert (E : get raw 8 = Raise IndexError).
    { unfold get. replace (nth_error raw 8) with (@None text); auto. symmetry. apply nth_error_None.
      assert (length raw = length lines) by (clear -Hl; induction Hl; cbn; auto). lia. }
    rewrite E. reflexivity. }
  split.
  { intros ws Hw H2. destruct (Hword _ Hw) as (l8 & -> & W). cbn [rbind]. unfold word at 1. rewrite W. unfold get at 1.
    rewrite (proj2 (nth_error_None ws 2)) by auto. reflexivity. }
  split.
  { intros a b w ws Hw Hr. destruct (Hword _ Hw) as (l8 & -> & W). cbn [rbind].
    rewrite (word_of _ _ 2 w W) by auto. cbn [rbind]. rewrite Hr. reflexivity. }
  split.
  { intros a b w ws Hw Hr H1. destruct (Hword _ Hw) as (l8 & -> & W). cbn [rbind].
    rewrite (word_of _ _ 2 w W) by auto. cbn [rbind]. destruct (read w); [|congruence]. cbn [value rbind].
    unfold word at 1. rewrite W. unfold get at 1. rewrite (proj2 (nth_error_None _ 4)) by (cbn; lia). reflexivity. }
  { intros a b w c v ws Hw Hr Hv. destruct (Hword _ Hw) as (l8 & -> & W). cbn [rbind].
    rewrite (word_of _ _ 2 w W) by auto. cbn [rbind]. destruct (read w); [|congruence]. cbn [value rbind].
    rewrite (word_of _ _ 4 v W) by auto. cbn [rbind]. rewrite Hv. reflexivity. }
Qed.
Print Assumptions C50_errors.
Definition bad_file (l8 : string) : text := concat (map (fun l => la l ++ [line_end]) ["";"";"";"";"";"";"";"";l8]%string).
Example C50_errors_example : forall s, 
    (s (la "chains/run.stats") = Some (bad_file "log(Z) = inf +/- 1") ->
       @process_polychord_stats int_floats (la "run") (la "chains") s = Raise ValueError) /\
    (s (la "chains/run.stats") = Some (bad_file "log(Z) = 12") ->
       @process_polychord_stats int_floats (la "run") (la "chains") s = Raise IndexError).
Proof.
  intros s. split; intros H; unfold process_polychord_stats;
    change (path_join (la "chains") (la "run") ++ la ".stats") with (la "chains/run.stats"); rewrite H; reflexivity.
Qed.

(** ** Files which have been cut off *)
Lemma line_words_cut : forall lines k j ws, line_words lines j ws -> j < k -> line_words (firstn k lines) j ws.
Proof.
  intros lines k j ws (l & Hl & Hw) Hj. exists l. split; auto. rewrite <- Hl. clear -Hj. revert k j Hj.
  induction lines as [|x lines IH]; intros [|k] [|j] H; try lia; cbn; auto; try (destruct j; reflexivity). apply IH. lia.
Qed.
Lemma clusters_cut : forall F ls zs es m, @clusters F ls zs es -> clusters (firstn m ls) (firstn m zs) (firstn m es).
Proof. intros F ls zs es m H. revert m. induction H; intros [|m]; cbn; constructor; auto. Qed.
Lemma read_clusters_end : forall F ls raw zs es, Forall2 as_line ls raw -> @clusters F ls zs es ->
    (forall l, In l ls -> ~ In newline l) -> @read_clusters F raw = Ok (zs, es).
Proof.
  intros F ls raw zs es H Hc Hnl. 
  pose proof (read_clusters_of F ls raw zs es [] [line_end] [] H Hc Hnl (or_introl eq_refl) ltac:(discriminate)) as E.
  assert (G : forall r l, text_eqb (firstn 5 l) (la "log(Z") = false -> forall v, @read_clusters F (r ++ [l]) = Ok v -> @read_clusters F r = Ok v).
  { clear. induction r as [|x r IH]; intros l Hl v Hv; cbn [app read_clusters] in *.
    - rewrite Hl in Hv. exact Hv.
    - destruct (negb _); auto. step Hv t Ht. rewrite Ht. cbn [rbind]. step Hv w0 H0. rewrite H0. cbn [rbind].
      step Hv z Hz. rewrite Hz. cbn [rbind]. step Hv w2 H2. rewrite H2. cbn [rbind].
      step Hv e He. rewrite He. cbn [rbind]. step Hv q Hq. rewrite (IH l Hl _ Hq). cbn [rbind]. exact Hv. }
  eapply G; eauto. reflexivity.
Qed.
(** A file cut before the line of the mean numbers of likelihood calls is an
    IndexError. *)
Theorem C50_cut : forall F (s : store) file lines (o : stats F) k,
    file_says lines o -> k <= 25 + length (st_logZs o) ->
    s (path_join (st_base o) (st_root o) ++ la ".stats") = Some file -> lines_of file (firstn k lines) ->
    @process_polychord_stats F (st_root o) (st_base o) s = Raise IndexError.
Proof.
  intros F s file lines o k H Hk Hs Hl. pose proof (proj1 Hl) as Hnl. apply readlines_of in Hl.
  unfold process_polychord_stats. rewrite Hs. set (raw := readlines file) in *. cbv zeta.
  assert (Hlen : length raw <= k).
  { replace (length raw) with (length (firstn k lines)) by (clear -Hl; induction Hl; cbn; auto). apply firstn_le_length. }
  assert (Hget : forall j, k <= j -> get raw j = Raise IndexError).
  { intros j Hj. unfold get. rewrite (proj2 (nth_error_None raw j)) by lia. auto. }
  destruct H as [(a & b & z & c & e & ws & H8 & Hz & He) (before & ls & line & after & El & Eb & Hline & Hcl & Hnc)
                 (a1 & n1 & r1 & H20 & N20) (a2 & n2 & r2 & H21 & N21) (a3 & n3 & r3 & H22 & N22) (a4 & n4 & r4 & H23 & N23)
                 (w5 & H24 & _) _ _].
  destruct (Nat.le_gt_cases k 8) as [K|K]; [rewrite Hget by lia; reflexivity|].
  destruct (get_words _ _ _ _ Hl (line_words_cut _ _ _ _ H8 K)) as (l8 & G8 & W8). rewrite G8. cbn [rbind].
  rewrite (word_of _ _ 2 z W8) by auto. cbn [rbind]. rewrite Hz. cbn [value rbind].
  rewrite (word_of _ _ 4 e W8) by auto. cbn [rbind]. rewrite He. cbn [value rbind].
  set (n := length (st_logZs o)) in *. assert (Hn : length ls = n) by (unfold n; clear -Hcl; induction Hcl; cbn; auto).
  assert (Hskip : skipn 14 (firstn k lines) = firstn (k - 14) (ls ++ line :: after)).
  { rewrite El, firstn_app, Eb, skipn_app. destruct (Nat.le_gt_cases k 14).
    - replace (k - 14) with 0 by lia. cbn [firstn]. rewrite skipn_nil, app_nil_r. apply skipn_all2. rewrite firstn_length. lia.
    - rewrite skipn_all2 by (rewrite firstn_length; lia). cbn [app]. rewrite firstn_length, Eb.
      replace (14 - Nat.min k 14) with 0 by lia. reflexivity. }
  pose proof (Forall2_skip _ _ _ _ _ 14 Hl) as Hraw. rewrite Hskip in Hraw.
  assert (Hnl14 : forall l, In l (firstn (k - 14) (ls ++ line :: after)) -> ~ In newline l).
  { intros l Hi. apply Hnl. rewrite <- Hskip in Hi. rewrite <- (firstn_skipn 14 (firstn k lines)). apply in_or_app. auto. }
  destruct (Nat.le_gt_cases (k - 14) n) as [K14|K14].
  - rewrite firstn_app, Hn in Hraw, Hnl14. replace (k - 14 - n) with 0 in Hraw, Hnl14 by lia. cbn [firstn] in Hraw, Hnl14. rewrite app_nil_r in Hraw, Hnl14.
    rewrite (read_clusters_end F _ _ _ _ Hraw (clusters_cut F _ _ _ (k - 14) Hcl) Hnl14). cbn [rbind].
    rewrite Hget by (rewrite firstn_length; fold n; lia). reflexivity.
  - rewrite firstn_app, Hn, firstn_all2 in Hraw, Hnl14 by lia.
    destruct (k - 14 - n) as [|j] eqn:Ej; [lia|]. cbn [firstn] in Hraw, Hnl14.
    apply Forall2_app_inv_l in Hraw as (raw1 & raw2 & K1 & K2 & K3). rewrite K3.
    inversion K2 as [|l0 l1 ls0 rest E1 E2]; subst l0 ls0 raw2.
    rewrite (read_clusters_of F ls raw1 _ _ line l1 rest K1 Hcl (fun l Hi => Hnl14 l (in_or_app _ _ _ (or_introl Hi))) E1 Hline). cbn [rbind]. fold n.
    assert (Hint : forall j a w ws x, line_words lines j (a :: w :: ws) -> read_int w = Some x -> j < k ->
              (let! l := get raw j in let! w := word l 1 in value (read_int w)) = Ok x).
    { intros i a' w ws' x Hw Hx Hi. destruct (get_words _ _ _ _ Hl (line_words_cut _ _ _ _ Hw Hi)) as (l & G & W). rewrite G. cbn [rbind].
      rewrite (word_of _ _ 1 w W) by auto. cbn [rbind]. rewrite Hx. reflexivity. }
    destruct (Nat.le_gt_cases k (20 + n)) as [A|A]; [rewrite Hget by lia; reflexivity|].
    rewrite (Hint _ _ _ _ _ H20 N20) by lia. cbn [rbind].
    destruct (Nat.le_gt_cases k (21 + n)) as [B|B]; [rewrite Hget by lia; reflexivity|].
    rewrite (Hint _ _ _ _ _ H21 N21) by lia. cbn [rbind].
    destruct (Nat.le_gt_cases k (22 + n)) as [C|C]; [rewrite Hget by lia; reflexivity|].
    rewrite (Hint _ _ _ _ _ H22 N22) by lia. cbn [rbind].
    destruct (Nat.le_gt_cases k (23 + n)) as [D|D]; [rewrite Hget by lia; reflexivity|].
    rewrite (Hint _ _ _ _ _ H23 N23) by lia. cbn [rbind].
    destruct (Nat.le_gt_cases k (24 + n)) as [G|G]; [rewrite Hget by lia; reflexivity|].
    destruct (get_words _ _ _ _ Hl (line_words_cut _ _ _ _ H24 G)) as (l24 & G24 & _). rewrite G24. cbn [rbind].
    rewrite Hget by lia. reflexivity.
Qed.
Print Assumptions C50_cut.
Lemma parameters_cut : forall F ls ms es k, @parameters F ls ms es -> exists j, parameters (firstn k ls) (firstn j ms) (firstn j es).
Proof.
  intros F ls ms es k H. revert k. induction H as [|l ls ms es Hd H IH|l ls m e ms es w0 w1 w2 w3 ws Hd Hw Hm He H IH]; intros k.
  - exists 0. rewrite firstn_nil. constructor.
  - destruct k as [|k]; [exists 0; constructor|]. destruct (IH k) as (j & Hj). exists j. cbn [firstn]. apply dashes_line; auto.
  - destruct k as [|k]; [exists 0; constructor|]. destruct (IH k) as (j & Hj). exists (S j). cbn [firstn]. eapply one_parameter; eauto.
Qed.
(** A file cut after it is read; what is missing are means of parameters. *)
Theorem C50_cut_parameters : forall F (s : store) file lines (o : stats F) k,
    file_says lines o -> 26 + length (st_logZs o) <= k -> k <= length lines ->
    s (path_join (st_base o) (st_root o) ++ la ".stats") = Some file -> lines_of file (firstn k lines) ->
    exists ms es, 
      @process_polychord_stats F (st_root o) (st_base o) s =
        Ok (mkStats (st_root o) (st_base o) (st_logZ o) (st_logZerr o) (st_logZs o) (st_logZerrs o) (st_ncluster o)
              (st_nposterior o) (st_nequals o) (st_ndead o) (st_nlive o) (st_nlike o) (st_avnlike o) (st_avnlikeslice o) ms es) /\
      if k <=? 29 + length (st_logZs o) then ms = None /\ es = None
      else exists ms0 es0 j, st_means o = Some ms0 /\ st_errs o = Some es0 /\ ms = Some (firstn j ms0) /\ es = Some (firstn j es0).
Proof.
  intros F s file lines o k H Hk Hkl Hs Hl.
  assert (Hw : forall j ws, line_words lines j ws -> j < k -> line_words (firstn k lines) j ws) by (intros; apply line_words_cut; auto).
  assert (Hlen : length (firstn k lines) = k) by (apply firstn_length_le; auto).
  destruct H as [(a & b & z & c & e & ws & H8 & Hz & He) (before & ls & line & after & El & Eb & Hline & Hcl & Hnc)
                 (a1 & n1 & r1 & H20 & N20) (a2 & n2 & r2 & H21 & N21) (a3 & n3 & r3 & H22 & N22) (a4 & n4 & r4 & H23 & N23)
                 (w5 & H24 & N24) (w6 & u6 & xs & ys & H25 & N25) Hpar].
  set (n := length (st_logZs o)) in *. assert (Hn : length ls = n) by (unfold n; clear -Hcl; induction Hcl; cbn; auto).
  assert (Hgo : forall ms es,
     (if k <=? 29 + n then ms = None /\ es = None
      else exists before ls ms' es', firstn k lines = before ++ ls /\ length before = 29 + n /\ parameters ls ms' es' /\ ms = Some ms' /\ es = Some es') ->
     @process_polychord_stats F (st_root o) (st_base o) s =
        Ok (mkStats (st_root o) (st_base o) (st_logZ o) (st_logZerr o) (st_logZs o) (st_logZerrs o) (st_ncluster o)
              (st_nposterior o) (st_nequals o) (st_ndead o) (st_nlive o) (st_nlike o) (st_avnlike o) (st_avnlikeslice o) ms es)).
  { intros ms es Hm. 
    apply (C50_any_file F s file (firstn k lines) (mkStats (st_root o) (st_base o) (st_logZ o) (st_logZerr o) (st_logZs o) (st_logZerrs o) (st_ncluster o)
              (st_nposterior o) (st_nequals o) (st_ndead o) (st_nlive o) (st_nlike o) (st_avnlike o) (st_avnlikeslice o) ms es) Hs Hl).
    constructor; cbn [st_logZ st_logZerr st_logZs st_logZerrs st_ncluster st_nposterior st_nequals st_ndead st_nlive st_nlike
                    st_avnlike st_avnlikeslice st_means st_errs]; fold n.
    - exists a, b, z, c, e, ws. split; [apply Hw; auto; lia|auto].
    - exists before, ls, line, (firstn (k - 15 - n) after). split; [|auto].
      rewrite El, firstn_app, Eb, firstn_all2 by lia. f_equal. rewrite firstn_app, Hn, firstn_all2 by lia. f_equal.
      replace (k - 14 - n) with (S (k - 15 - n)) by lia. reflexivity.
    - exists a1, n1, r1. split; [apply Hw; auto; lia|auto].
    - exists a2, n2, r2. split; [apply Hw; auto; lia|auto].
    - exists a3, n3, r3. split; [apply Hw; auto; lia|auto].
    - exists a4, n4, r4. split; [apply Hw; auto; lia|auto].
    - exists w5. split; [apply Hw; auto; lia|auto].
    - exists w6, u6, xs, ys. split; [apply Hw; [exact H25|lia]|exact N25].
    - rewrite Hlen. exact Hm. }
  destruct (Nat.leb_spec k (29 + n)) as [A|A].
  - exists None, None. split; auto.
  - destruct (Nat.leb_spec (length lines) (29 + n)) as [B|B]; [lia|].
    destruct Hpar as (bp & lp & ms & es & Ep & Lp & P & M1 & M2).
    destruct (parameters_cut F _ _ _ (k - (29 + n)) P) as (j & Hj).
    exists (Some (firstn j ms)), (Some (firstn j es)). split; [|exists ms, es, j; auto].
    apply Hgo. exists bp, (firstn (k - (29 + n)) lp), (firstn j ms), (firstn j es).
    split; [|auto]. rewrite Ep, firstn_app, Lp, firstn_all2 by lia. reflexivity.
Qed.
Print Assumptions C50_cut_parameters.
Definition lines_text (ls : list text) : text := concat (map (fun l => l ++ [line_end]) ls).
Example C50_cut_example :
    file_says a_file_lines a_stats /\
    @process_polychord_stats int_floats (la "run") (la "chains") (fun _ => Some (lines_text (firstn 27 a_file_lines))) = Raise IndexError /\
    @process_polychord_stats int_floats (la "run") (la "chains") (fun _ => Some (lines_text (firstn 15 a_file_lines))) = Raise IndexError /\
    exists o, @process_polychord_stats int_floats (la "run") (la "chains") (fun _ => Some (lines_text (firstn 32 a_file_lines))) = Ok o /\
      st_means o = Some [4%Z] /\
    exists o', @process_polychord_stats int_floats (la "run") (la "chains") (fun _ => Some (lines_text (firstn 30 a_file_lines))) = Ok o' /\
      st_means o' = None.
Proof.
  split; [apply C50_any_file_example|]. split; [reflexivity|]. split; [reflexivity|].
  eexists. split; [reflexivity|]. split; [reflexivity|]. eexists. split; reflexivity.
Qed.

(** ** The file written *)
(** A text which is at some place of a line. *)
Definition at_column (l : text) (k : nat) (w : text) : Prop := exists a b, l = a ++ w ++ b /\ length a = k.
(** What the lines say: the number of the line, its words. *)
Definition says (lines : list text) (k : nat) (ws : list text) : Prop := line_words lines k ws.
Lemma int_width : forall k, (k < 99 -> length (rjust 2 (show_int (Z.of_nat (k + 1)))) = 2) /\
    (k < 999 -> length (ljust 3 (show_int (Z.of_nat (k + 1)))) = 3).
Proof.
  assert (H : forallb (fun k => length (rjust 2 (show_int (Z.of_nat (k + 1)))) =? 2) (seq 0 99) = true /\
              forallb (fun k => length (ljust 3 (show_int (Z.of_nat (k + 1)))) =? 3) (seq 0 999) = true)
    by (split; vm_compute; reflexivity).
  destruct H as [H1 H2]. rewrite forallb_forall in H1, H2.
  intros k. split; intros Hk; apply Nat.eqb_eq; [apply H1|apply H2]; apply in_seq; lia.
Qed.
Lemma nth_enumerate : forall A (l : list A) k x, nth_error l k = Some x -> nth_error (enumerate l) k = Some (k, x).
Proof.
  intros A l k x H. unfold enumerate.
  assert (G : forall (l : list A) j k x, nth_error l k = Some x -> nth_error (combine (seq j (length l)) l) k = Some (j + k, x)).
  { clear. induction l as [|y l IH]; intros j [|k] x H; cbn in *; try discriminate.
    - injection H as ->. rewrite Nat.add_0_r. auto.
    - rewrite (IH (S j) k x H). do 2 f_equal. lia. }
  apply (G l 0 k x H).
Qed.
Lemma nth_combine : forall A B (a : list A) (b : list B) k x y, nth_error a k = Some x -> nth_error b k = Some y ->
    nth_error (combine a b) k = Some (x, y).
Proof.
  induction a as [|u a IH]; intros b [|k] x y Ha Hb; destruct b; cbn in *; try discriminate; auto. congruence.
Qed.
Lemma words_nl : forall l ws, split_ws (with_nl l) = ws -> words_are l ws.
Proof.
  intros l ws H. pose proof (split_are l) as Hs. pose proof (words_blank_end l _ line_end Hs line_end_blank) as He.
  apply words_split in He. change (l ++ [line_end]) with (with_nl l) in He. rewrite He in H. rewrite <- H. auto.
Qed.
Lemma cluster_words : forall F i (x e : num F),
    split_ws (with_nl (cluster_line i x e)) =
    [la "log(Z_"; show_int (Z.of_nat (i + 1)) ++ la ")"; la "="; show x; la "+/-"; show e].
Proof.
  intros F i x e. unfold with_nl, cluster_line, rjust.
  generalize (2 - length (show_int (Z.of_nat (i + 1)))). intros k.
  pose proof (show_word F x) as H1. pose proof (show_word F e) as H2.
  assert (H3 : a_word (show_int (Z.of_nat (i + 1)) ++ la ")")).
  { destruct (int_word (Z.of_nat (i + 1))) as [A B]. split.
    - intros E. apply app_eq_nil in E as [_ E]. discriminate.
    - intros c Hc. apply in_app_or in Hc as [Hc|[<-|[]]]; auto. }
  assert (E : (la "log(Z_ " ++ (repeat " "%char k ++ show_int (Z.of_nat (i + 1))) ++ la ")  =  " ++ show x ++ la " +/-   " ++ show e) ++ [newline] =
     la "log(Z_" ++ " "%char :: (repeat " "%char k ++ (show_int (Z.of_nat (i + 1)) ++ la ")") ++ la "  =  " ++ show x ++ la " +/-   " ++ show e ++ [newline])).
  { rewrite <- !app_assoc. reflexivity. }
  rewrite E. clear E. generalize dependent (show x). generalize dependent (show e). generalize dependent (show_int (Z.of_nat (i + 1)) ++ la ")").
  intros u Hu v Hv w Hw. 
  assert (Hl : a_word (la "log(Z_")) by (split; [discriminate|cbn; intuition (subst; auto)]).
  rewrite (split_word _ _ _ Hl) by auto. f_equal.
  rewrite split_spaces. words.
Qed.
(** Where the parts of the file are. *)
Lemma nth_app2 : forall A (a b : list A) n k, length a = n -> nth_error (a ++ b) (n + k) = nth_error b k.
Proof. intros A a b n k <-. rewrite nth_error_app2 by lia. f_equal. lia. Qed.

Theorem C50_layout : forall F (d : stats_in F) s o s', write_stats_file d s = Ok (o, s') ->
    exists file lines ms es, s' (path_join (st_base o) (st_root o ++ la ".stats")) = Some file /\
      file = concat (map (fun l => l ++ [line_end]) lines) /\ (forall l, In l lines -> ~ In line_end l) /\
      st_means o = Some ms /\ st_errs o = Some es /\
      let n := Nat.min (length (st_logZs o)) (length (st_logZerrs o)) in
      length lines = 30 + n + Nat.min (length ms) (length es) /\
      (** headings *)
      says lines 0 [la "Evidence"; la "estimates:"] /\ says lines 5 [la "Global"; la "evidence:"] /\
      says lines 11 [la "Local"; la "evidences:"] /\ says lines (16 + n) [la "Run-time"; la "information:"] /\
      says lines (28 + n) [la "Dim"; la "No."; la "Mean"; la "Sigma"] /\
      (** evidences *)
      says lines 8 [la "log(Z)"; la "="; show (st_logZ o); la "+/-"; show (st_logZerr o)] /\
      (forall k z e, nth_error (st_logZs o) k = Some z -> nth_error (st_logZerrs o) k = Some e ->
         says lines (14 + k) [la "log(Z_"; show_int (Z.of_nat (k + 1)) ++ la ")"; la "="; show z; la "+/-"; show e] /\
         exists l, nth_error lines (14 + k) = Some l /\ (k < 99 -> at_column l 12 (la "="))) /\
      (** numbers; that of clusters is not written *)
      says lines (19 + n) [la "ncluster:"; la "0"; la "/"; la "1"] /\
      says lines (20 + n) [la "nposterior:"; show_int (st_nposterior o)] /\
      says lines (21 + n) [la "nequals:"; show_int (st_nequals o)] /\
      says lines (22 + n) [la "ndead:"; show_int (st_ndead o)] /\
      says lines (23 + n) [la "nlive:"; show_int (st_nlive o)] /\
      (** means *)
      (forall k m e, nth_error ms k = Some m -> nth_error es k = Some e ->
         says lines (29 + n + k) [show_int (Z.of_nat (k + 1)); show m; la "+/-"; show e] /\
         exists l, nth_error lines (29 + n + k) = Some l /\ (k < 999 -> at_column l 5 (show m))) /\
      exists l, nth_error lines (29 + n + Nat.min (length ms) (length es)) = Some l /\ l = repeat "-"%char 31.
Proof.
  intros F d s o s' H. unfold write_stats_file in H.
  destruct (in_root d) as [root|]; [|discriminate]. destruct (in_base d) as [base|]; [|discriminate].
  destruct (in_extra d); [|discriminate]. cbn [assertb rbind] in H. cbv zeta in H.
  injection H as Ho Hs. match type of Ho with ?q = _ => set (o' := q) in * end.
  exists (flat_map (fun l => l ++ [newline]) (stats_lines o)), (stats_lines o).
  exists (dflt (in_means d) [zero; zero; zero]), (dflt (in_errs d) [zero; zero; zero]).
  split; [rewrite <- Hs, <- Ho; cbn [st_root st_base o']; rewrite text_eqb_refl; reflexivity|].
  split; [rewrite flat_map_concat_map; reflexivity|].
  split; [intros l Hl; apply (stats_lines_nl F o l Hl)|].
  split; [rewrite <- Ho; reflexivity|]. split; [rewrite <- Ho; reflexivity|].
  set (ms := dflt (in_means d) [zero; zero; zero]). set (es := dflt (in_errs d) [zero; zero; zero]).
  assert (Hm : dflt (st_means o) [] = ms) by (rewrite <- Ho; reflexivity).
  assert (He : dflt (st_errs o) [] = es) by (rewrite <- Ho; reflexivity).
  clear Hs Ho. clearbody o' ms es. intros n. unfold stats_lines. rewrite Hm, He.
  set (cl := map (fun '(i, (lz, le)) => cluster_line i lz le) (enumerate (combine (st_logZs o) (st_logZerrs o)))).
  set (pl := map (fun '(i, (m, e)) => param_line i m e) (enumerate (combine ms es))).
  assert (Ln : length cl = n).
  { unfold cl, enumerate. rewrite map_length, combine_length, seq_length, combine_length. fold n. lia. }
  assert (Lp : length pl = Nat.min (length ms) (length es)).
  { unfold pl, enumerate. rewrite map_length, combine_length, seq_length, combine_length. lia. }
  match goal with |- context [cl ++ ?m ++ pl ++ ?e] => set (mid := m); set (fin := e) end.
  match goal with |- context [head_lines ++ ?a ++ cl ++ _] => set (lz := a) end.
  assert (Lh : length (head_lines ++ lz) = 14) by reflexivity.
  assert (Lm : length mid = 15) by reflexivity.
  match goal with |- length ?x = _ /\ _ => set (lines := x) end.
  assert (El : lines = (head_lines ++ lz) ++ cl ++ mid ++ pl ++ fin) by (apply app_assoc). clearbody lines.
  assert (Hhead : forall k l, k < 14 -> nth_error (head_lines ++ lz) k = Some l -> nth_error lines k = Some l).
  { intros k l Hk Hl. rewrite El. rewrite nth_error_app1 by lia. auto. }
  assert (Hcl : forall k l, nth_error cl k = Some l -> nth_error lines (14 + k) = Some l).
  { intros k l Hl. rewrite El. rewrite (nth_app2 _ _ _ 14 k Lh). rewrite nth_error_app1; auto. apply nth_error_Some. congruence. }
  assert (Hmid : forall k l, nth_error mid k = Some l -> nth_error lines (14 + n + k) = Some l).
  { intros k l Hl. rewrite El. rewrite <- Nat.add_assoc, (nth_app2 _ _ _ 14 _ Lh), (nth_app2 _ _ _ n k Ln).
    rewrite nth_error_app1; auto. apply nth_error_Some. congruence. }
  assert (Hpl : forall k l, nth_error pl k = Some l -> nth_error lines (29 + n + k) = Some l).
  { intros k l Hl. rewrite El. replace (29 + n + k) with (14 + (n + (15 + k))) by lia.
    rewrite (nth_app2 _ _ _ 14 _ Lh), (nth_app2 _ _ _ n _ Ln), (nth_app2 _ _ _ 15 _ Lm).
    rewrite nth_error_app1; auto. apply nth_error_Some. congruence. }
  assert (Hsay : forall k l ws, nth_error lines k = Some l -> split_ws (with_nl l) = ws -> says lines k ws).
  { intros k l ws Hk Hw. exists l. split; auto. apply words_nl. auto. }
  assert (Hm14 : forall k l ws, nth_error mid k = Some l -> split_ws (with_nl l) = ws -> says lines (14 + n + k) ws).
  { intros k l ws Hk Hw. eapply Hsay; [apply Hmid; eauto|auto]. }
  destruct (int_lines (st_nposterior o)) as (I1 & _ & _ & _). destruct (int_lines (st_nequals o)) as (_ & I2 & _ & _).
  destruct (int_lines (st_ndead o)) as (_ & _ & I3 & _). destruct (int_lines (st_nlive o)) as (_ & _ & _ & I4).
  split. { rewrite El. rewrite (app_length (head_lines ++ lz)), Lh, (app_length cl), Ln, (app_length mid), Lm, (app_length pl), Lp. cbn [fin length]. lia. }
  split. { eapply Hsay; [apply Hhead; [lia|reflexivity]|reflexivity]. }
  split. { eapply Hsay; [apply Hhead; [lia|reflexivity]|reflexivity]. }
  split. { eapply Hsay; [apply Hhead; [lia|reflexivity]|reflexivity]. }
  split. { replace (16 + n) with (14 + n + 2) by lia. eapply Hm14; [reflexivity|reflexivity]. }
  split. { replace (28 + n) with (14 + n + 14) by lia. eapply Hm14; [reflexivity|reflexivity]. }
  split. { eapply Hsay; [apply Hhead; [lia|reflexivity]|apply logZ_line]. }
  split.
  { intros k z e Hz Hze.
    assert (Hk : nth_error cl k = Some (cluster_line k z e)).
    { unfold cl. erewrite map_nth_error by (apply nth_enumerate, nth_combine; eauto). reflexivity. }
    split; [eapply Hsay; [apply Hcl; eauto|apply cluster_words]|].
    exists (cluster_line k z e). split; [apply Hcl; auto|]. intros H99.
    exists (la "log(Z_ " ++ rjust 2 (show_int (Z.of_nat (k + 1))) ++ la ")  "), (la "  " ++ show z ++ la " +/-   " ++ show e).
    split; [unfold cluster_line; rewrite <- !app_assoc; reflexivity|].
    rewrite !app_length, (proj1 (int_width k) H99). reflexivity. }
  split. { replace (19 + n) with (14 + n + 5) by lia. eapply Hm14; [reflexivity|reflexivity]. }
  split. { replace (20 + n) with (14 + n + 6) by lia. eapply Hm14; [reflexivity|auto]. }
  split. { replace (21 + n) with (14 + n + 7) by lia. eapply Hm14; [reflexivity|auto]. }
  split. { replace (22 + n) with (14 + n + 8) by lia. eapply Hm14; [reflexivity|auto]. }
  split. { replace (23 + n) with (14 + n + 9) by lia. eapply Hm14; [reflexivity|auto]. }
  split.
  { intros k m e Hkm Hke.
    assert (Hk : nth_error pl k = Some (param_line k m e)).
    { unfold pl. erewrite map_nth_error by (apply nth_enumerate, nth_combine; eauto). reflexivity. }
    split; [eapply Hsay; [apply Hpl; eauto|apply param_words]|].
    exists (param_line k m e). split; [apply Hpl; auto|]. intros H999.
    exists (ljust 3 (show_int (Z.of_nat (k + 1))) ++ la "  "), (la " +/-   " ++ show e).
    split; [unfold param_line; rewrite <- !app_assoc; reflexivity|].
    rewrite !app_length, (proj2 (int_width k) H999). reflexivity. }
  exists (la "-------------------------------"). split; [|reflexivity].
  rewrite El. replace (29 + n + Nat.min (length ms) (length es)) with (14 + (n + (15 + (Nat.min (length ms) (length es) + 0)))) by lia.
  rewrite (nth_app2 _ _ _ 14 _ Lh), (nth_app2 _ _ _ n _ Ln), (nth_app2 _ _ _ 15 _ Lm), (nth_app2 _ _ _ _ 0 Lp). reflexivity.
Qed.
Print Assumptions C50_layout.
(** The line of the third parameter. *)
Example C50_layout_example : forall s, exists o s' lines,
    write_stats_file (@mkIn int_floats (Some (la "run")) (Some (la "chains")) None None None None None None None None None
      None None None (Some [5%Z; 6%Z; 7%Z; 8%Z]) (Some [1%Z; 2%Z; 3%Z]) []) s = Ok (o, s') /\
    s' (la "chains/run.stats") = Some (lines_text lines) /\ length lines = 34 /\
    nth_error lines 32 = Some (la "3    7 +/-   3") /\ nth_error lines 14 = Some (la "log(Z_  1)  =  0 +/-   0").
Proof. intros s. do 3 eexists. split; [reflexivity|]. split; [unfold lines_text; cbn [text_eqb]; rewrite text_eqb_refl, flat_map_concat_map; reflexivity|]. repeat split; reflexivity. Qed.
