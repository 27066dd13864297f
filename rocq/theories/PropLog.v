(** * Property C63: the log of the decisions. *)
From Verif Require Import LogProofs PolicyProofs.

(** A policy may change the bookkeeping of the assignments object, but no values. *)
Definition keeps_values {P} (pol : policy P) : Prop :=
  ∀ p a cls v p' a', pol p a cls = Ok (v, p', a') → a_data a' = a_data a.

Lemma default_keeps : keeps_values default_policy.
Proof. intros p a cls v p' a'. unfold default_policy. destruct (filter _ _) as [|[w o] l]; [done|]. by intros [= <- <- <-]. Qed.
Lemma refresh_keeps env a cls p : a_data (refresh env a cls p).2 = a_data a.
Proof.
  unfold refresh. destruct (consume_changelog a) as [c a'] eqn:E. cbn.
  change a' with (snd (c, a')). rewrite <- E. apply consume_fields.
Qed.
Lemma uc_return_keeps c p a v p' a' : uc_return c p a = Ok (v, p', a') → a' = a.
Proof. unfold uc_return. destruct c as [w|]; [|done]. destruct (aset_value a w); [done|]. congruence. Qed.
Local Ltac bc c := match goal with |- (best_candidate ?a ?b ?c' ?d ≫= _) = _ → _ =>
  destruct (best_candidate a b c' d) as [[c ?]|]; cbn [mbind res_bind]; [|done] end.
Lemma uc_keeps env : keeps_values (uc_policy env).
Proof.
  intros p a cls v p' a'. unfold uc_policy.
  set (pa := if decide (a_new a = ∅) then (p, a) else refresh env a cls p).
  assert (a_data pa.2 = a_data a) as Ha. { unfold pa. case_decide; [done|]. apply refresh_keeps. }
  clearbody pa. destruct pa as [q b]. cbn in Ha. rewrite <- Ha. clear Ha.
  destruct (best_sorted env b); [by intros ->%uc_return_keeps|].
  bc w. destruct w as [w|]; [by intros ->%uc_return_keeps|].
  bc w. destruct w as [w|]; [by intros ->%uc_return_keeps|].
  destruct (refresh env b cls _) as [q' b'] eqn:Er.
  assert (a_data b' = a_data b) as <-. { change b' with (q', b').2. rewrite <- Er. apply refresh_keeps. }
  bc w. destruct w as [w|]; [by intros ->%uc_return_keeps|].
  bc w. by intros ->%uc_return_keeps.
Qed.

(** ** Growing a right log *)
Lemma last_index {A} (l : list A) x : last l = Some x → l !! pred (length l) = Some x.
Proof. by rewrite last_lookup. Qed.
Lemma explained_replay snaps log : log_explained snaps log → replay log = default ∅ (last snaps).
Proof.
  intros [Hl H]. destruct (last snaps) as [m|] eqn:E; cbn.
  - apply last_index in E. destruct (H _ _ E) as [_ Hr]. rewrite take_ge in Hr; [done|]. lia.
  - apply last_None in E as ->. by destruct log.
Qed.
Lemma explained_snoc snaps log now c : log_explained snaps log →
  difference_of (default ∅ (last snaps)) now c → log_explained (snaps ++ [now]) (log ++ [c]).
Proof.
  intros Hex Hc. pose proof (explained_replay _ _ Hex) as Hr. destruct Hex as [Hl H].
  split; [rewrite !app_length; cbn; lia|]. intros i m Hi.
  assert ((i < length snaps)%nat ∧ snaps !! i = Some m ∨ i = length snaps ∧ now = m) as [[Hi' Hm]|[Hi' <-]].
  { destruct (decide (i < length snaps)%nat) as [Hlt|Hge].
    - left. split; [done|]. by rewrite lookup_app_l in Hi.
    - right. rewrite lookup_app_r in Hi by lia. destruct (i - length snaps)%nat as [|n] eqn:En; [|done].
      cbn in Hi. injection Hi as ->. split; [lia|done]. }
  - destruct (H i m Hm) as ((c' & Hc' & Hd) & Ht). split.
    + exists c'. split; [rewrite lookup_app_l by (by eapply lookup_lt_Some); done|].
      destruct i as [|j]; [done|]. by rewrite lookup_app_l by lia.
    + rewrite take_app_le by lia. done.
  - subst i. split.
    + exists c. split.
      * rewrite <- Hl. by rewrite list_lookup_middle.
      * destruct (length snaps) as [|j] eqn:Ej.
        -- apply nil_length_inv in Ej as ->. done.
        -- rewrite lookup_app_l by lia. rewrite last_lookup, Ej in Hc. done.
    + rewrite take_ge by (rewrite app_length; cbn; lia). unfold replay. rewrite foldl_app. cbn.
      fold (replay log). rewrite Hr. by apply replay_step_diff.
Qed.

Section run.
  Context {P : Type} (pol : policy P) (Hpol : keeps_values pol).
  Definition sound (st : logged P * list situation * list Z) (a : aset) : Prop :=
    let '(_, suggestions, log, snaps, answers) := st in
    right_log snaps answers suggestions log ∧ tracks (default ∅ (last snaps)) a.
  Lemma sound_set st k v a : 0 ≤ k → sound st a → ensures (sound st) (aset_set k v a).
  Proof.
    destruct st as [[[[p sg] log] snaps] ans]. intros Hk [H T]. pose proof (tracks_set _ _ v _ Hk T) as T'.
    destruct (aset_set k v a); cbn in *; done.
  Qed.
  Lemma sound_step st a cls v st' a' : sound st a → observed pol st a cls = Ok (v, st', a') → sound st' a'.
  Proof.
    destruct st as [[[[p sg] log] snaps] ans]. intros [(-> & Hlen & Hex) T]. unfold observed, logged_policy.
    pose proof (tracks_changelog _ _ T) as Hd.
    destruct (get_fields a) as (Ha & _ & _). destruct (get_changelog a) as [ch a1] eqn:Eg. cbn in Hd, Ha.
    destruct (pol p a1 cls) as [[[w q] a2]|e] eqn:Ep; cbn [mbind res_bind]; [|done].
    pose proof (tracks_consume a2) as Tc. destruct (consume_changelog a2) as [c2 a3] eqn:Ec.
    intros [= -> <- <-]. cbn. split; [split; [done|split]|].
    - rewrite !app_length. cbn. lia.
    - by apply explained_snoc.
    - rewrite last_snoc. cbn. replace (current a) with (current a2); [done|].
      unfold current. by rewrite (Hpol _ _ _ _ _ _ Ep), Ha.
  Qed.
  Lemma sound_new p : sound (p, [], [], [], []) aset_empty.
  Proof. split; [done|]. apply tracks_empty. Qed.

  (** At every moment of every run, whatever its end, the log is right: a check that accepts right logs never
      stops the run. *)
  Lemma guarded_run check fuel p rules :
    (∀ snaps answers suggestions log, right_log snaps answers suggestions log → check snaps answers suggestions log = true) →
    solve_clauses (guarded check pol) fuel (p, [], [], [], []) rules = solve_clauses (logged_policy pol) fuel (p, [], []) rules.
  Proof.
    intros Hc. apply (solve_run _ _ (λ st l a, st.1.1 = l ∧ sound st a)).
    - intros st l k v a Hk [He Hs]. pose proof (sound_set st k v a Hk Hs) as H. by destruct (aset_set k v a); cbn in *.
    - intros st l a cls [<- Hs]. unfold guarded. pose proof (sound_step st a cls) as Hst.
      destruct st as [[l snaps] ans]. cbn [fst]. unfold observed in *.
      destruct (logged_policy pol l a cls) as [[[v l'] a']|e]; cbn [mbind res_bind] in *; [|done].
      specialize (Hst _ _ _ Hs eq_refl). destruct l' as [[p' sg] log]. cbn in Hst.
      rewrite Hc by apply Hst. done.
    - split; [done|]. apply sound_new.
  Qed.

  (** The log of a finished run. *)
  Lemma finished_run fuel p rules s0 st s :
    from_clauses rules = Ok (Normal s0) →
    search_loop (observed pol) fuel fuel (decision_level s0) (p, [], [], [], []) s0 = Ok (Normal (st, s)) → sound st (s_asg s).
  Proof.
    intros E0 E.
    set (R := λ (st st' : logged P * list situation * list Z) a, st = st' ∧ sound st a).
    assert (HS : ∀ p q k v a, 0 ≤ k → R p q a → ensures (R p q) (aset_set k v a)).
    { intros x y k v a Hk [-> Hs]. pose proof (sound_set y k v a Hk Hs) as H. by destruct (aset_set k v a); cbn in *. }
    pose proof (start_run R HS (p, [], [], [], []) (p, [], [], [], []) rules (conj eq_refl (sound_new p))) as H0.
    rewrite E0 in H0. cbn in H0.
    unshelve epose proof (loop_run (observed pol) (observed pol) R HS _ fuel fuel (decision_level s0) _ _ s0 H0) as Hl.
    - intros x y a cls [-> Hs]. pose proof (sound_step y a cls) as Hst.
      destruct (observed pol y a cls) as [[[v y'] a']|e]; [|done]. split; [done|]. split; [done|]. split; [done|]. by eapply Hst.
    - rewrite E in Hl. cbn in Hl. apply Hl.
  Qed.
End run.

(** ** The theorems *)
(** During every run of the solver with a logged policy, however the run ends, the log is right at every decision: it
    lists the decisions taken so far, and the changes it lists for a decision are exactly the differences to the
    situation of the decision before, so that the situation at every decision can be recovered from the log. *)
Theorem C63_log : ∀ P (pol : policy P) check fuel p rules, keeps_values pol →
  (∀ snaps answers suggestions log, right_log snaps answers suggestions log → check snaps answers suggestions log = true) →
  solve_clauses (guarded check pol) fuel (p, [], [], [], []) rules = solve_clauses (logged_policy pol) fuel (p, [], []) rules.
Proof. intros P pol check fuel p rules Hp. by apply guarded_run. Qed.
(** This covers the policy of the dependency solver and the default policy. *)
Theorem C63_policies : (∀ env, keeps_values (uc_policy env)) ∧ keeps_values default_policy.
Proof. split; [apply uc_keeps|apply default_keeps]. Qed.
(** The log that a successful run leaves behind. *)
Theorem C63_finished : ∀ P (pol : policy P) fuel p rules s0 p' suggestions log snaps answers s, keeps_values pol →
  from_clauses rules = Ok (Normal s0) →
  search_loop (observed pol) fuel fuel (decision_level s0) (p, [], [], [], []) s0 =
    Ok (Normal (p', suggestions, log, snaps, answers, s)) →
  right_log snaps answers suggestions log.
Proof.
  intros P pol fuel p rules s0 p' suggestions log snaps answers s Hp E0 E.
  by destruct (finished_run pol Hp _ _ _ _ _ _ E0 E).
Qed.

(** ** The report *)
Lemma known_keys_ok name c : (∀ k, is_Some (c !! k) → is_ok (name k) = true) → known_keys name c = Ok ().
Proof.
  intros H. unfold known_keys.
  assert (∀ k, k ∈ (map_to_list c).*1 → is_ok (name k) = true) as H'.
  { intros k ([k' v] & -> & Hk)%elem_of_list_fmap. apply elem_of_map_to_list in Hk. apply H. by exists v. }
  revert H'. generalize ((map_to_list c).*1) as l. induction l as [|k l IH]; intros H'; [done|]. cbn [foldM].
  specialize (H' k) as Hk. destruct (name k); cbn [mbind res_bind]; [apply IH; intros; apply H'; by right|].
  discriminate Hk. left.
Qed.
Lemma existsb_map (c : changelog) :
  existsb (λ kc, bool_decide (kc.2.2 = None)) (map_to_list c) = true ↔ ∃ k old, c !! k = Some (old, None).
Proof.
  rewrite existsb_exists. split.
  - intros ([k [o n]] & Hin & Hb). apply elem_of_list_In, elem_of_map_to_list in Hin. apply bool_decide_eq_true in Hb. cbn in Hb. subst. eauto.
  - intros (k & o & H). exists (k, (o, None)). split; [|by apply bool_decide_eq_true].
    by apply elem_of_list_In, elem_of_map_to_list.
Qed.

Section rep.
  Context (name : Z → res string) (wa : bool) (m : log_meta).
  (** What line number [i] says. *)
  Definition line_for (changes : list changelog) (i : nat) (v : Z) (l : log_line) : Prop :=
    ∃ c n, changes !! S i = Some c ∧ name v = Ok n ∧
      l = LogLine i (bool_decide (v ∈ lm_required m)) (bool_decide (v ∈ lm_installed m)) v
            (if wa then filter (λ kc, other_name name n kc.1 = true) c else ∅)
            (existsb (λ kc, bool_decide (kc.2.2 = None)) (map_to_list c)).
  Lemma report_lines_spec changes suggs : (∀ c k, c ∈ changes → is_Some (c !! k) → is_ok (name k) = true) →
    (∀ v, v ∈ suggs → is_ok (name v) = true) → ∀ i, length changes = (i + length suggs)%nat →
    ∃ ls, report_lines name wa m changes i suggs = Ok ls ∧ length ls = pred (length suggs) ∧
      ∀ j l, ls !! j = Some l → ∃ v, suggs !! j = Some v ∧ line_for changes (i + j) v l.
  Proof.
    intros Hc Hn. induction suggs as [|v suggs IH]; intros i Hl.
    - exists []. split_and!; try done.
    - cbn [report_lines]. destruct (IH (λ w Hw, Hn w (elem_of_list_further _ _ _ Hw)) (S i)) as (ls & E & Hlen & Hls); [cbn in Hl; lia|].
      unfold report_line. specialize (Hn v (elem_of_list_here _ _)) as Hv. destruct (name v) as [n|] eqn:En; [|done]. cbn [mbind res_bind].
      destruct (changes !! S i) as [c|] eqn:Ec.
      + rewrite known_keys_ok by (intros; eapply Hc; [by eapply elem_of_list_lookup_2|done]). cbn [mbind res_bind]. rewrite E. cbn [mbind res_bind].
        eexists. split; [reflexivity|]. split.
        * cbn. rewrite Hlen. apply lookup_lt_Some in Ec. cbn in Hl. destruct suggs; cbn in *; lia.
        * intros [|j] l; cbn.
          -- intros [= <-]. exists v. split; [done|]. exists c, n. rewrite Nat.add_0_r. done.
          -- intros Hj. destruct (Hls _ _ Hj) as (w & Hw & Hl'). exists w. split; [done|].
             by replace (i + S j)%nat with (S i + j)%nat by lia.
      + apply lookup_ge_None in Ec. cbn in Hl. assert (suggs = []) as -> by (destruct suggs; cbn in *; [done|lia]).
        cbn [mbind res_bind report_lines]. exists []. split_and!; try done.
  Qed.
End rep.

Lemma difference_some prev now c k old new : difference_of prev now c → c !! k = Some (old, new) → old = prev !! k ∧ new = now !! k ∧ old ≠ new.
Proof. intros H. apply H. Qed.

(** The report on a right log: one line for every decision but the last, in order.  Its line for decision [i] lists the
    packages (of other names than the one decided) whose value changed until decision [i + 1], with both values; "BACKTRACKED" follows
    exactly if a variable that had a value at decision [i] has none at decision [i + 1].  The header lists what
    was assigned at the first decision. *)
Theorem C63_report : ∀ name m snaps answers suggestions log,
  (∀ v, v ∈ answers → is_ok (name (Z.abs v)) = true) →
  (∀ now k, now ∈ snaps → is_Some (now !! k) → is_ok (name k) = true) →
  right_log snaps answers suggestions log →
  ∃ header lines, log_report name true m suggestions log = Ok (header, lines) ∧
    length lines = pred (length answers) ∧
    (∀ first, snaps !! 0%nat = Some first →
       ∃ h, header = Some h ∧ ∀ k b, first !! k = Some b ↔ h !! k = Some (None, Some b)) ∧
    ∀ i line, lines !! i = Some line → ∃ v before after,
      answers !! i = Some v ∧ snaps !! i = Some before ∧ snaps !! S i = Some after ∧
      ll_index line = i ∧ ll_package line = Z.abs v ∧
      (ll_required line = true ↔ Z.abs v ∈ lm_required m) ∧
      (∀ k old new, ll_changes line !! k = Some (old, new) ↔
         old = before !! k ∧ new = after !! k ∧ old ≠ new ∧ name k ≠ name (Z.abs v)) ∧
      (ll_backtracked line = true ↔ ∃ k b, before !! k = Some b ∧ after !! k = None).
Proof.
  intros name m snaps answers sg log Hn Hk (-> & Hlen & Hl & Hex).
  assert (∀ c k, c ∈ log → is_Some (c !! k) → is_ok (name k) = true) as Hkeys.
  { intros c k [i Hi]%elem_of_list_lookup [[o n] Hc].
    assert (is_Some (snaps !! i)) as [now Hnow]. { apply lookup_lt_is_Some. apply lookup_lt_Some in Hi. lia. }
    destruct (Hex _ _ Hnow) as ((c' & Hc' & Hd) & _). rewrite Hi in Hc'. injection Hc' as <-.
    destruct (proj1 (Hd k o n) Hc) as (Ho & Hw & Hne). rewrite Ho, Hw in Hne. clear Ho Hw. destruct (now !! k) as [b|] eqn:Eb.
    - apply (Hk now); [by eapply elem_of_list_lookup_2|by exists b].
    - destruct i as [|j]; cbn in Hne; [by rewrite lookup_empty in Hne|].
      destruct (snaps !! j) as [pr|] eqn:Ej; cbn in Hne; [|by rewrite lookup_empty in Hne].
      apply (Hk pr); [by eapply elem_of_list_lookup_2|]. destruct (pr !! k); [done|done]. }
  destruct (report_lines_spec name true m log (Z.abs <$> answers)) with (i:=0%nat) as (ls & E & Hls & Hspec).
  { exact Hkeys. }
  { intros v (w & -> & Hw)%elem_of_list_fmap. by apply Hn. }
  { rewrite fmap_length. cbn. lia. }
  assert (∃ header, match log with c :: _ => _ ← known_keys name c; Ok (Some (filter (λ kc : Z * (option bool * option bool), kc.2.2 ≠ None) c)) | [] => Ok None end
    = Ok header ∧ header = (filter (λ kc : Z * (option bool * option bool), kc.2.2 ≠ None)) <$> (log !! 0%nat)) as (header & Eh & Hh).
  { destruct log as [|c log]; [by eexists|]. rewrite known_keys_ok by (intros; eapply Hkeys; [by left|done]). by eexists. }
  exists header, ls. unfold log_report. rewrite Eh. cbn [mbind res_bind]. rewrite E. cbn [mbind res_bind].
  split; [done|]. split; [by rewrite Hls, fmap_length|]. split.
  - intros first H0. destruct (Hex _ _ H0) as ((c & Hc & Hd) & _). cbn in Hd. rewrite Hc in Hh. cbn in Hh.
    eexists. split; [exact Hh|]. intros k b. rewrite map_filter_lookup_Some. rewrite (Hd k None (Some b)), lookup_empty.
    split; [intros ->; by split|]. by intros [(_ & -> & _) _].
  - intros i l Hi. destruct (Hspec i l Hi) as (v' & Hv & c & n & Hc & Hnv & ->). cbn in Hc.
    rewrite list_lookup_fmap in Hv. destruct (answers !! i) as [v|] eqn:Ev; [|done]. cbn in Hv. injection Hv as <-.
    assert (is_Some (snaps !! i)) as [before Hb].
    { apply lookup_lt_is_Some. apply lookup_lt_Some in Ev. lia. }
    assert (is_Some (snaps !! S i)) as [after Ha].
    { apply lookup_lt_is_Some. apply lookup_lt_Some in Hc. lia. }
    destruct (Hex _ _ Ha) as ((c' & Hc' & Hd) & _). rewrite Hc in Hc'. injection Hc' as <-.
    rewrite Hb in Hd. cbn in Hd.
    exists v, before, after. cbn [ll_index ll_package ll_required ll_changes ll_backtracked].
    split_and!; try done.
    + apply bool_decide_eq_true.
    + intros k old new. rewrite map_filter_lookup_Some, (Hd k old new). cbn. unfold other_name. rewrite Hnv.
      split.
      * intros [(-> & -> & H1) H2]. split_and!; try done. destruct (name k) as [n'|]; [|done].
        apply bool_decide_eq_true in H2. congruence.
      * intros (-> & -> & H1 & H2). split; [done|]. assert (is_ok (name k) = true) as Hok.
        { destruct (before !! k) as [b|] eqn:Eb.
          - apply (Hk before); [by eapply elem_of_list_lookup_2|by exists b].
          - apply (Hk after); [by eapply elem_of_list_lookup_2|]. destruct (after !! k); [by eexists|done]. }
        destruct (name k) as [n'|]; [|done]. apply bool_decide_eq_true. congruence.
    + rewrite existsb_map. split.
      * intros (k & old & Hx). apply Hd in Hx as (-> & Hx & Hne). destruct (before !! k) as [b|] eqn:Eb; [|done]. exists k, b. done.
      * intros (k & b & Hx & Hy). exists k, (Some b). apply Hd. by rewrite Hx, Hy.
Qed.

(** No line is marked "I" (installed): the logger looks for an attribute that neither policy has. *)
Theorem C63_installed_never : ∀ name wa idss suggestions log header lines line,
  log_report name wa (foldl (λ m ids, log_add_requirements ids m) log_meta_new idss) suggestions log = Ok (header, lines) →
  line ∈ lines → ll_installed line = false.
Proof.
  intros name wa idss sg log header lines line.
  assert (∀ idss m, lm_installed m = ∅ → lm_installed (foldl (λ m ids, log_add_requirements ids m) m idss) = ∅) as Hm.
  { clear. induction idss as [|ids idss IH]; intros m Hm; [done|]. cbn. apply IH. cbn. rewrite Hm. set_solver. }
  specialize (Hm idss log_meta_new eq_refl). revert Hm. generalize (foldl (λ m ids, log_add_requirements ids m) log_meta_new idss) as m.
  intros m Hm. unfold log_report.
  destruct (match log with [] => _ | _ => _ end) as [h|e]; cbn [mbind res_bind]; [|done].
  destruct (report_lines _ _ _ _ _ _) as [ls|e] eqn:E; cbn [mbind res_bind]; [|done]. intros [= <- <-].
  revert E. generalize 0%nat as i. generalize (Z.abs <$> sg) as l. revert ls.
  intros ls l. revert ls. induction l as [|v l IH]; intros ls i; cbn [report_lines].
  - intros [= <-]. by intros ?%elem_of_nil.
  - destruct (report_line _ _ _ _ _ _) as [x|e] eqn:E1; cbn [mbind res_bind]; [|done].
    destruct (report_lines _ _ _ _ (S i) l) as [ls'|e] eqn:E2; cbn [mbind res_bind]; [|done].
    intros [= <-] [Hx|Hl]%elem_of_app; [|by eapply IH].
    unfold report_line in E1. destruct (name v) as [n|]; cbn [mbind res_bind] in E1; [|done].
    destruct (log !! S i) as [c|]; [|injection E1 as <-; by apply elem_of_nil in Hx].
    destruct (known_keys name c); cbn [mbind res_bind] in E1; [|done]. injection E1 as <-.
    apply elem_of_list_singleton in Hx as ->. cbn. rewrite Hm. apply bool_decide_eq_false. set_solver.
Qed.

(** ** The histogram: how often each variable was decided, most often first. *)
Theorem C63_histogram : ∀ suggestions,
  let h := log_histogram suggestions in
  NoDup h.*1 ∧
  (∀ x n, (x, n) ∈ h ↔ (∃ v, v ∈ suggestions ∧ x = Z.abs v) ∧ n = length (filter (λ v, Z.abs v = x) suggestions)) ∧
  StronglySorted (λ a b : Z * nat, (b.2 ≤ a.2)%nat) h.
Proof.
  intros sg h.
  assert (∀ x, count_occ_Z (Z.abs <$> sg) x = length (filter (λ v, Z.abs v = x) sg)) as Hc.
  { intros x. unfold count_occ_Z. clear h. induction sg as [|v sg IH]; [done|].
    rewrite fmap_cons, !filter_cons. destruct (decide (Z.abs v = x)); cbn; by rewrite IH. }
  assert (h ≡ₚ counter (Z.abs <$> sg)) as Hp by apply sort_by_perm.
  split_and!.
  - rewrite Hp. unfold counter. rewrite <- list_fmap_compose. cbn.
    rewrite (list_fmap_ext _ id (fromkeys (Z.abs <$> sg))) by done. rewrite list_fmap_id. apply NoDup_fromkeys.
  - intros x n. rewrite Hp. unfold counter. rewrite elem_of_list_fmap. split.
    + intros (y & [= -> ->] & Hy). rewrite elem_of_fromkeys in Hy. apply elem_of_list_fmap in Hy as (v & -> & Hv).
      split; [by exists v|apply Hc].
    + intros [(v & Hv & ->) ->]. exists (Z.abs v). split; [by rewrite Hc|]. rewrite elem_of_fromkeys. apply elem_of_list_fmap. by exists v.
  - assert (sorted_by (λ a b : Z * nat, (b.2 <? a.2)%nat) h) as Hs.
    { apply sort_by_sorted.
      - cbn. intros a b H%Nat.ltb_lt. apply Nat.ltb_ge. lia.
      - cbn. intros a b c H1%Nat.ltb_ge H2%Nat.ltb_ge. apply Nat.ltb_ge. lia. }
    clearbody h. clear Hp. unfold sorted_by in Hs. induction Hs as [|x l Hs IH Hall]; constructor; [done|].
    eapply Forall_impl; [exact Hall|]. cbn. intros y H. apply Nat.ltb_ge in H. done.
Qed.

(** ** Examples *)
Definition cl (l : list Z) : list Z * option rule := (l, None).
(** Variable 1 cannot be true; the default policy finds out by a conflict right after deciding it. *)
Definition ex_log_rules := [cl [-1; 2]; cl [-1; -2]; cl [3; 4]; cl [5; 1]].
Definition ex_log_run (rules : list (list Z * option rule)) : option (list Z * list (list (Z * (option bool * option bool))) * list (list (Z * bool))) :=
  match from_clauses rules with
  | Ok (Normal s0) =>
      match search_loop (observed default_policy) 100 100 (decision_level s0) ((), [], [], [], []) s0 with
      | Ok (Normal (_, suggestions, log, snaps, _, _)) => Some (suggestions, map_to_list <$> log, map_to_list <$> snaps)
      | _ => None
      end
  | _ => None
  end.
Example ex_log : ex_log_run ex_log_rules =
  Some ([1; 2; 3; 4],
        [[]; [(1, (None, Some false)); (5, (None, Some true))]; [(2, (None, Some true))]; [(3, (None, Some true))]],
        [[]; [(1, false); (5, true)]; [(1, false); (2, true); (5, true)]; [(1, false); (2, true); (3, true); (5, true)]]).
Proof. vm_compute. reflexivity. Qed.

(** The packages and the marks of the lines of the report on a run. *)
Definition ex_report (rules : list (list Z * option rule)) : option (list (Z * bool)) :=
  match from_clauses rules with
  | Ok (Normal s0) =>
      match search_loop (observed default_policy) 100 100 (decision_level s0) ((), [], [], [], []) s0 with
      | Ok (Normal (_, suggestions, log, _, _, _)) =>
          match log_report (λ k, Ok (if k =? 1 then "a"%string else "b"%string)) true log_meta_new suggestions log with
          | Ok (_, lines) => Some ((λ l, (ll_package l, ll_backtracked l)) <$> lines)
          | _ => None
          end
      | _ => None
      end
  | _ => None
  end.
(** The last decision (4) is missing from the report; and 1, decided first, turned out to be false at the second decision (see [ex_log]),
    but no "BACKTRACKED" follows its line. *)
Theorem C63_report_refuted : ex_report ex_log_rules = Some [(1, false); (2, false); (3, false)].
Proof. vm_compute. reflexivity. Qed.
(** A run with the mark: 3 is in conflict with 1, so the decision for 2 in between is undone. *)
Theorem C63_report_example :
  let rules := [cl [1; 2; 5]; cl [-3; -1; 4]; cl [-3; -1; -4]] in
  ex_report rules = Some [(1, false); (2, false); (3, true); (2, false); (4, false)] ∧
  ∃ log snaps, ex_log_run rules = Some ([1; 2; 3; 2; 4; 5], log, snaps) ∧
    log_histogram [1; 2; 3; 2; 4; 5] = [(2, 2%nat); (1, 1%nat); (3, 1%nat); (4, 1%nat); (5, 1%nat)].
Proof. split; [vm_compute; reflexivity|]. eexists _, _. split; vm_compute; reflexivity. Qed.
(** The checks of C63_log include any test that right logs pass, for example the lengths. *)
Theorem C63_log_example : ∀ snaps answers suggestions log, right_log snaps answers suggestions log →
  (length suggestions =? length log)%nat && (length snaps =? length answers)%nat = true.
Proof. intros ? ? ? ? (-> & H1 & H2 & _). rewrite H1, H2, Nat.eqb_refl. done. Qed.

Print Assumptions C63_log. Print Assumptions C63_policies. Print Assumptions C63_finished.
Print Assumptions C63_report. Print Assumptions C63_installed_never. Print Assumptions C63_histogram.
Print Assumptions C63_report_refuted. Print Assumptions C63_report_example.
