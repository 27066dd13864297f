(** * Property C90: publishing the files of a release, also when the script is interrupted. *)
From Coq Require Import String.
From Verif Require Import Release.
Local Open Scope string_scope.
Local Open Scope list_scope.

(** The release holds a file of this name with this hash. *)
Definition published (hash : string → string) (st : gmap string string) (f : string * string) : Prop :=
  ∃ d, st !! f.1 = Some d ∧ hash d = hash f.2.
(** The names outside the folder are as before. *)
Definition others_kept (folder : list (string * string)) (st st' : gmap string string) : Prop :=
  ∀ n, n ∉ folder.*1 → st' !! n = st !! n.

Lemma perform_all_app l l' st : perform_all (l ++ l') st = perform_all l st ≫= perform_all l'.
Proof. revert st. induction l as [|a l IH]; intros st; [done|]. cbn [app perform_all]. destruct (perform a st); [apply IH|done]. Qed.

Section upload.
  Context (hash : string → string).
  (** A part of the plan of one file. *)
  Definition acts_on (n : string) (a : action) : Prop := match a with ADelete m => m = n | AUpload m _ => m = n end.
  Lemma perform_other n a st st' m : acts_on n a → m ≠ n → perform a st = Some st' → st' !! m = st !! m.
  Proof.
    destruct a as [k|k d]; cbn; intros -> Hm; destruct (st !! n); try done; intros [= <-].
    - by rewrite lookup_delete_ne.
    - by rewrite lookup_insert_ne.
  Qed.
  Lemma perform_all_other (N : list string) l : (∀ a, a ∈ l → ∃ n, n ∈ N ∧ acts_on n a) → ∀ st st' m, m ∉ N → perform_all l st = Some st' → st' !! m = st !! m.
  Proof.
    induction l as [|a l IH]; intros Hl st st' m Hm H; [by injection H as <-|]. cbn in H. destruct (perform a st) as [s1|] eqn:E; [|done].
    destruct (Hl a) as (n & Hn & Ha); [left|]. rewrite (IH (λ b Hb, Hl b (elem_of_list_further _ _ _ Hb)) s1 st' m Hm H).
    eapply perform_other; [exact Ha| |exact E]. by intros ->.
  Qed.
  Lemma archive_acts force replace assets f : ∀ a, a ∈ (for_archive hash force replace assets f).1 → acts_on f.1 a.
  Proof.
    intros a. unfold for_archive. destruct (assets !! f.1) as [d|]; [destruct force; [|case_decide; [|destruct replace]]|]; cbn; set_solver.
  Qed.
  Lemma plan_acts force replace assets folder : ∀ a, a ∈ (upload_plan hash force replace assets folder).1 → ∃ n, n ∈ folder.*1 ∧ acts_on n a.
  Proof.
    induction folder as [|f r IH]; intros a; cbn [upload_plan]; [by intros ?%elem_of_nil|].
    pose proof (archive_acts force replace assets f a) as Ha. destruct (for_archive hash force replace assets f) as [l stop]. cbn in Ha.
    destruct stop; [intros H; exists f.1; split; [left|by apply Ha]|]. destruct (upload_plan hash force replace assets r) as [l' stop'].
    intros [H|H]%elem_of_app; [exists f.1; split; [left|by apply Ha]|]. destruct (IH a H) as (n & Hn & Han). exists n. split; [by right|done].
  Qed.
  (** Carrying out the part for one file: every step is possible if the server still has what the list says. *)
  Lemma archive_done force replace (assets st : gmap string string) f : st !! f.1 = assets !! f.1 →
    ∃ st', perform_all (for_archive hash force replace assets f).1 st = Some st' ∧
      ((for_archive hash force replace assets f).2 = false → published hash st' f ∧ (force = true → st' !! f.1 = Some f.2)) ∧
      ((for_archive hash force replace assets f).2 = true ↔ force = false ∧ replace = false ∧ ∃ d, assets !! f.1 = Some d ∧ hash d ≠ hash f.2).
  Proof.
    intros Hst. unfold for_archive, published. destruct (assets !! f.1) as [d|] eqn:E.
    - destruct force.
      + cbn. rewrite Hst, lookup_delete. eexists. split; [done|]. rewrite lookup_insert. split; [intros _; split; [eauto|done]|]. split; [done|by intros [? _]].
      + case_decide as Hh; [|destruct replace]; cbn.
        * exists st. split; [done|]. rewrite Hst. split; [intros _; split; [eauto|done]|]. split; [done|]. intros (_ & _ & d' & [= <-] & Hd). by destruct Hd.
        * rewrite Hst, lookup_delete. eexists. split; [done|]. rewrite lookup_insert. split; [intros _; split; [eauto|done]|]. split; [done|by intros (_ & ? & _)].
        * exists st. split; [done|]. split; [done|]. split; [intros _; split; [done|]; split; [done|]; exists d; split; [done|]; congruence|done].
    - cbn. rewrite Hst. eexists. split; [done|]. rewrite lookup_insert. split; [intros _; split; [eauto|done]|]. split; [done|]. by intros (_ & _ & d & ? & _).
  Qed.
  Lemma plan_done force replace assets folder : NoDup folder.*1 → ∀ st : gmap string string, (∀ n, n ∈ folder.*1 → st !! n = assets !! n) →
    ∃ st', perform_all (upload_plan hash force replace assets folder).1 st = Some st' ∧ others_kept folder st st' ∧
      ((upload_plan hash force replace assets folder).2 = false → ∀ f, f ∈ folder → published hash st' f ∧ (force = true → st' !! f.1 = Some f.2)) ∧
      ((upload_plan hash force replace assets folder).2 = true ↔ force = false ∧ replace = false ∧ ∃ f d, f ∈ folder ∧ assets !! f.1 = Some d ∧ hash d ≠ hash f.2).
  Proof.
    induction folder as [|f r IH]; intros Hn st Hst.
    { cbn. exists st. split; [done|]. split; [done|]. split; [by intros _ f Hf%elem_of_nil|]. split; [done|]. intros (_ & _ & f & d & Hf%elem_of_nil & _). done. }
    cbn in Hn. apply NoDup_cons in Hn as [Hf Hn]. destruct (archive_done force replace assets st f) as (s1 & E1 & H1 & H2); [apply Hst; left|].
    cbn [upload_plan]. assert (Ha := archive_acts force replace assets f). destruct (for_archive hash force replace assets f) as [l stop]. cbn in E1, H1, H2, Ha.
    assert (Ho1 : ∀ m, m ≠ f.1 → s1 !! m = st !! m).
    { intros m Hm. apply (perform_all_other [f.1] l) with (st := st) (st' := s1); [|set_solver|done]. intros a Hal. exists f.1. split; [left|by apply Ha]. }
    destruct stop; cbn.
    - exists s1. split; [done|]. split; [intros m Hm; apply Ho1; cbn in Hm; set_solver|]. split; [done|]. split; [|done]. intros _.
      destruct (proj1 H2 eq_refl) as (-> & -> & d & Hd). split; [done|]. split; [done|]. exists f, d. split; [left|done].
    - destruct (IH Hn s1) as (st' & E & Ho & Hp & Hs). { intros n Hnr. rewrite Ho1 by (intros ->; done). apply Hst. by right. }
      pose proof (plan_acts force replace assets r) as Hpa. destruct (upload_plan hash force replace assets r) as [l' stop'] eqn:Ep. cbn in E, Hp, Hs |- *.
      exists st'. rewrite perform_all_app, E1. cbn. split; [done|]. split.
      { intros m Hm. cbn in Hm. rewrite Ho by set_solver. apply Ho1. set_solver. }
      split.
      + intros Hst' g [->|Hg]%elem_of_cons; [|by apply Hp]. destruct (H1 eq_refl) as [(d & Hd & Hh) H1f].
        unfold published. rewrite Ho by done. split; [eauto|done].
      + rewrite Hs. split.
        * intros (-> & -> & g & d & Hg & Hd). split; [done|]. split; [done|]. exists g, d. split; [by right|done].
        * intros (-> & -> & g & d & [->|Hg]%elem_of_cons & Hd); [|split; [done|]; split; [done|]; by exists g, d].
          exfalso. assert (false = true) as H; [|done]. apply H2. split; [done|]. split; [done|]. by exists d.
  Qed.
End upload.

(** ** The theorems *)
(** A run that is not interrupted never gets an error from the server.  It exits with -1 exactly if neither option was given and a file of the
    folder is on the server with another hash; otherwise all files are published afterwards (with --force exactly as they are); and the other assets are
    as before in any case. *)
Theorem C90_upload : ∀ hash force replace folder st, NoDup folder.*1 →
  ∃ st' stop, upload_main hash force replace folder st = (Some st', stop) ∧ others_kept folder st st' ∧
    (stop = true ↔ force = false ∧ replace = false ∧ ∃ f d, f ∈ folder ∧ st !! f.1 = Some d ∧ hash d ≠ hash f.2) ∧
    (stop = false → ∀ f, f ∈ folder → published hash st' f ∧ (force = true → st' !! f.1 = Some f.2)).
Proof.
  intros hash force replace folder st Hn. unfold upload_main. destruct (plan_done hash force replace st folder Hn st (λ _ _, eq_refl)) as (st' & E & Ho & Hp & Hs).
  destruct (upload_plan hash force replace st folder) as [l stop]. cbn in *. exists st', stop. rewrite E. done.
Qed.

(** States that interrupted runs with any options can lead to, starting from [st]. *)
Inductive interrupted (hash : string → string) (folder : list (string * string)) (st : gmap string string) : gmap string string → Prop :=
  | int_start : interrupted hash folder st st
  | int_run s s' force replace k : interrupted hash folder st s → upload_killed hash force replace k folder s = Some s' → interrupted hash folder st s'.
(** However often and wherever the script was killed: a complete run with --replace or --force repairs everything, and the other
    assets are never touched. *)
Theorem C90_crash : ∀ hash folder st s force replace, NoDup folder.*1 → interrupted hash folder st s → force || replace = true →
  others_kept folder st s ∧
  ∃ st', upload_main hash force replace folder s = (Some st', false) ∧ others_kept folder st st' ∧ ∀ f, f ∈ folder → published hash st' f.
Proof.
  intros hash folder st s force replace Hn Hi Hfr.
  assert (Ho : others_kept folder st s).
  { induction Hi as [|s s' fo re k Hi IH E]; [done|]. intros n Hnf. rewrite <-IH by done. eapply (perform_all_other folder.*1); [|done|exact E].
    intros a Ha. apply (plan_acts hash fo re s folder). eapply elem_of_take in Ha as (i & Hi' & _). by eapply elem_of_list_lookup_2. }
  split; [done|]. destruct (C90_upload hash force replace folder s Hn) as (st' & stop & E & Ho' & Hs & Hp).
  assert (stop = false) as ->. { destruct stop; [|done]. destruct (proj1 Hs eq_refl) as (-> & -> & _). done. }
  exists st'. split; [done|]. split; [intros n Hnf; rewrite Ho', Ho; done|]. intros f Hf. by apply Hp.
Qed.
(** A killed run has had no error either. *)
Theorem C90_killed : ∀ hash force replace k folder st, NoDup folder.*1 → ∃ st', upload_killed hash force replace k folder st = Some st'.
Proof.
  intros hash force replace k folder st Hn. unfold upload_killed. destruct (plan_done hash force replace st folder Hn st (λ _ _, eq_refl)) as (st' & E & _).
  rewrite <-(take_drop k (upload_plan hash force replace st folder).1), perform_all_app in E. destruct (perform_all (take k _) st); [eauto|done].
Qed.

Lemma careful_acts hash assets folder a : a ∈ (upload_plan hash false false assets folder).1 → ∃ n d, a = AUpload n d.
Proof.
  induction folder as [|f r IH]; cbn [upload_plan]; [by intros ?%elem_of_nil|]. unfold for_archive. destruct (assets !! f.1); [case_decide|].
  - destruct (upload_plan hash false false assets r). exact IH.
  - by intros ?%elem_of_nil.
  - destruct (upload_plan hash false false assets r). cbn. intros [->|Ha]%elem_of_cons; [eauto|by apply IH].
Qed.
(** Without the options nothing is ever deleted or replaced, wherever the script is killed. *)
Theorem C90_careful : ∀ hash k folder st st', upload_killed hash false false k folder st = Some st' → st ⊆ st'.
Proof.
  intros hash k folder st st' H. unfold upload_killed in H.
  assert (Hl : ∀ a, a ∈ take k (upload_plan hash false false st folder).1 → ∃ n d, a = AUpload n d).
  { intros a Ha. apply elem_of_take in Ha as (i & Ha%elem_of_list_lookup_2 & _). by eapply careful_acts. }
  revert H Hl. generalize (take k (upload_plan hash false false st folder).1). intros l. clear k.
  revert st. induction l as [|a l IH]; intros st H Hl; [by injection H as <-|]. destruct (Hl a) as (n & d & ->); [left|]. cbn in H.
  destruct (st !! n) eqn:E; [done|]. etrans; [by apply (insert_subseteq st n d)|]. apply (IH _ H). intros b Hb. apply Hl. by right.
Qed.
(** With them, a killed run leaves at most one asset of the release missing, one of the names in the folder. *)
Lemma archive_gap hash force replace (assets st st' : gmap string string) f k : st !! f.1 = assets !! f.1 →
  perform_all (take k (for_archive hash force replace assets f).1) st = Some st' →
  ∀ n, is_Some (st !! n) → n ≠ f.1 → is_Some (st' !! n).
Proof.
  intros _ H n Hn Hne. rewrite (perform_all_other [f.1] (take k (for_archive hash force replace assets f).1)) with (st := st) (st' := st'); [done| |set_solver|exact H].
  intros a Ha. exists f.1. split; [left|]. apply elem_of_take in Ha as (i & Ha%elem_of_list_lookup_2 & _). by eapply archive_acts.
Qed.
Lemma plan_gap hash force replace assets folder : NoDup folder.*1 → ∀ k (st st' : gmap string string), (∀ n, n ∈ folder.*1 → st !! n = assets !! n) →
  perform_all (take k (upload_plan hash force replace assets folder).1) st = Some st' →
  ∃ m, ∀ n, is_Some (st !! n) → is_Some (st' !! n) ∨ n = m ∧ n ∈ folder.*1.
Proof.
  induction folder as [|f r IH]; intros Hn k st st' Hst; cbn [upload_plan].
  { cbn [fst]. rewrite take_nil. intros [= <-]. exists "". auto. }
  cbn in Hn. apply NoDup_cons in Hn as [Hf Hn].
  destruct (archive_done hash force replace assets st f) as (s1 & E1 & H1 & H2); [apply Hst; left|].
  pose proof (λ s, archive_gap hash force replace assets st s f) as Hg. pose proof (archive_acts hash force replace assets f) as Ha.
  assert (Hlast : is_Some (st !! f.1) → is_Some (s1 !! f.1)).
  { intros Hs. destruct ((for_archive hash force replace assets f).2) eqn:E2.
    - destruct (proj1 H2 eq_refl) as (-> & -> & d & Hd & Hh). revert E1. unfold for_archive. rewrite Hd. rewrite decide_False by congruence. by intros [= <-].
    - destruct (H1 eq_refl) as [(d & Hd & _) _]. eauto. }
  destruct (for_archive hash force replace assets f) as [l stop]. cbn in E1, H1, H2, Ha, Hg.
  assert (Hcut : ∀ s, perform_all (take k l) st = Some s → ∃ m, ∀ n, is_Some (st !! n) → is_Some (s !! n) ∨ n = m ∧ n ∈ f.1 :: r.*1).
  { intros s Hs. exists f.1. intros n Hsn. destruct (decide (n = f.1)) as [->|Hne]; [right; split; [done|left]|left]. by eapply Hg; [apply Hst; left|exact Hs|..]. }
  destruct stop; [cbn; apply Hcut|]. destruct (upload_plan hash force replace assets r) as [l' stop'] eqn:Ep. cbn in *.
  destruct (decide (k ≤ length l)%nat) as [Hk|Hk].
  - rewrite take_app_le by done. apply Hcut.
  - rewrite take_app_ge, perform_all_app, E1 by lia. cbn. intros H.
    assert (Ho1 : ∀ m, m ≠ f.1 → s1 !! m = st !! m).
    { intros m Hm. apply (perform_all_other [f.1] l) with (st := st) (st' := s1); [|set_solver|done]. intros a Hal. exists f.1. split; [left|by apply Ha]. }
    destruct (IH Hn (k - length l)%nat s1 st') as [m Hm]; [|done|].
    { intros n Hnr. rewrite Ho1 by (intros ->; done). apply Hst. by right. }
    exists m. intros n Hsn. destruct (Hm n) as [?|[-> ?]].
    + destruct (decide (n = f.1)) as [->|Hne]; [by apply Hlast|by rewrite Ho1].
    + by left.
    + right. split; [done|]. by right.
Qed.
Theorem C90_gap : ∀ hash force replace k folder st st', NoDup folder.*1 → upload_killed hash force replace k folder st = Some st' →
  ∃ m, ∀ n, is_Some (st !! n) → is_Some (st' !! n) ∨ n = m ∧ n ∈ folder.*1.
Proof. intros hash force replace k folder st st' Hn H. by eapply plan_gap. Qed.
(** There can be such a gap: the old file is deleted before the new one is uploaded. *)
Theorem C90_gap_refuted : ∃ folder st st', NoDup folder.*1 ∧ is_Some (st !! "simplesat.whl") ∧
  upload_killed id false true 1 folder st = Some st' ∧ st' !! "simplesat.whl" = None.
Proof.
  exists [("simplesat.whl", "new")], {["simplesat.whl" := "old"]}. eexists. split; [apply NoDup_singleton|]. split; [by eexists|].
  split; vm_compute; reflexivity.
Qed.

(** ** Waiting for a release *)
(** The pauses: doubled each time, up to a bound; the first one is not bounded. *)
Fixpoint pause (init max : Z) (k : nat) : Z := match k with O => init | S k => Z.min (pause init max k * 2) max end.
Lemma rounds_spec deadline max error ok now init n : ∀ k,
  match rounds deadline max error ok now n k (pause init max k) with
  | Some (Found r, l) => (k ≤ r)%nat ∧ ok r = true ∧ (∀ i, (k ≤ i < r)%nat → ok i = false ∧ now i < deadline) ∧ l = pause init max <$> seq k (r - k)
  | Some (e, l) => e = (if error then Timeout else Gave_up) ∧
      ∃ r, (k ≤ r)%nat ∧ deadline ≤ now r ∧ (∀ i, (k ≤ i ≤ r)%nat → ok i = false) ∧ (∀ i, (k ≤ i < r)%nat → now i < deadline) ∧ l = pause init max <$> seq k (S r - k)
  | None => ∀ i, (k ≤ i < k + n)%nat → ok i = false ∧ now i < deadline
  end.
Proof.
  induction n as [|n IH]; intros k; cbn [rounds]; [intros i Hi; lia|]. destruct (ok k) eqn:Ek.
  { split; [lia|]. split; [done|]. split; [intros i Hi; lia|]. by rewrite Nat.sub_diag. }
  case_decide as Ht.
  { assert (Hr : ∃ r, (k ≤ r)%nat ∧ deadline ≤ now r ∧ (∀ i, (k ≤ i ≤ r)%nat → ok i = false) ∧ (∀ i, (k ≤ i < r)%nat → now i < deadline) ∧
        [pause init max k] = pause init max <$> seq k (S r - k)).
    { exists k. split; [lia|]. split; [done|]. split; [intros i Hi; by replace i with k by lia|]. split; [intros i Hi; lia|]. by replace (S k - k)%nat with 1%nat by lia. }
    destruct error; done. }
  specialize (IH (S k)). cbn [pause] in IH. destruct (rounds deadline max error ok now n (S k) _) as [[e l]|].
  - assert (Hs : ∀ r m, (S k ≤ r)%nat → m = (r - k)%nat → pause init max k :: (pause init max <$> seq (S k) (r - S k)) = pause init max <$> seq k m).
    { intros r m Hr ->. replace (r - k)%nat with (S (r - S k)) by lia. done. }
    assert (Hsplit : ∀ i r, (k ≤ i < r)%nat → i = k ∨ (S k ≤ i < r)%nat) by lia.
    destruct e.
    + destruct IH as (H1 & H2 & H3 & ->). split; [lia|]. split; [done|]. split; [|by apply Hs]. intros i Hi. destruct (Hsplit i _ Hi) as [->|Hi']; [split; [done|lia]|by apply H3].
    + destruct IH as (He & r & H1 & H2 & H3 & H4 & ->). split; [done|]. exists r. split; [lia|]. split; [done|].
      split; [intros i Hi; destruct (decide (i = k)) as [->|]; [done|apply H3; lia]|]. split; [intros i Hi; destruct (Hsplit i _ Hi) as [->|?]; [lia|by apply H4]|].
      replace (S r - S k)%nat with (S r - S k)%nat by lia. apply (Hs (S r)); lia.
    + destruct IH as (He & r & H1 & H2 & H3 & H4 & ->). split; [done|]. exists r. split; [lia|]. split; [done|].
      split; [intros i Hi; destruct (decide (i = k)) as [->|]; [done|apply H3; lia]|]. split; [intros i Hi; destruct (Hsplit i _ Hi) as [->|?]; [lia|by apply H4]|].
      apply (Hs (S r)); lia.
  - intros i Hi. destruct (decide (i = k)) as [->|]; [split; [done|lia]|]. apply IH. lia.
Qed.
(** verify_release checks at least once; it ends well at the first check that finds the release, if the clock showed less than two seconds at
    all earlier ones; otherwise it fails after the first pause that ends after two seconds, with AssertionError; and never with the ValueError
    that it is written to raise. *)
Theorem C90_verify : ∀ max_delay start ok now n,
  match verify_release max_delay start ok now n with
  | Ok (Some pauses) => ∃ r, ok r = true ∧ (∀ i, (i < r)%nat → ok i = false ∧ now i < start + 2000) ∧ pauses = pause 10 max_delay <$> seq 0 r
  | Ok None => ∀ i, (i < n)%nat → ok i = false ∧ now i < start + 2000
  | Raise e => e = AssertionError ∧ ∃ r, start + 2000 ≤ now r ∧ (∀ i, (i ≤ r)%nat → ok i = false) ∧ ∀ i, (i < r)%nat → now i < start + 2000
  end.
Proof.
  intros max_delay start ok now n. unfold verify_release, sleeping_retry. cbn [mbind res_bind]. rewrite decide_False by lia. cbn [mbind res_bind].
  pose proof (rounds_spec (start + 2000) max_delay true ok now 10 n 0) as H. change (pause 10 max_delay 0) with 10 in H.
  destruct (rounds _ _ _ _ _ _ _ _) as [[e l]|].
  - destruct e.
    + destruct H as (_ & H1 & H2 & ->). exists round. split; [done|]. split; [intros i Hi; apply H2; lia|]. by rewrite Nat.sub_0_r.
    + destruct H as (_ & r & _ & H1 & H2 & H3 & _). split; [done|]. exists r. split; [done|]. split; [intros i Hi; apply H2; lia|intros i Hi; apply H3; lia].
    + destruct H as (He & _). done.
  - intros i Hi. apply H. lia.
Qed.
(** If the clock advances by the pauses at least, there are at most eight checks with the default bound of a minute (60000), however slow the server. *)
Theorem C90_eight : ∀ max_delay start ok now n, 1280 ≤ max_delay →
  start + 10 ≤ now 0%nat → (∀ i, now i + pause 10 max_delay (S i) ≤ now (S i)) → (8 ≤ n)%nat → verify_release max_delay start ok now n ≠ Ok None.
Proof.
  intros max_delay start ok now n Hm H0 Hs Hn H. pose proof (C90_verify max_delay start ok now n) as Hv. rewrite H in Hv.
  destruct (Hv 7%nat) as [_ H7]; [lia|]. assert (P : ∀ k x, pause 10 max_delay k = x → x * 2 ≤ max_delay → pause 10 max_delay (S k) = x * 2).
  { intros k x <- Hx. cbn. lia. }
  assert (P1 := P 0%nat 10 eq_refl ltac:(lia)). assert (P2 := P _ _ P1 ltac:(lia)). assert (P3 := P _ _ P2 ltac:(lia)). assert (P4 := P _ _ P3 ltac:(lia)).
  assert (P5 := P _ _ P4 ltac:(lia)). assert (P6 := P _ _ P5 ltac:(lia)). assert (P7 := P _ _ P6 ltac:(lia)).
  pose proof (Hs 0%nat). pose proof (Hs 1%nat). pose proof (Hs 2%nat). pose proof (Hs 3%nat). pose proof (Hs 4%nat). pose proof (Hs 5%nat). pose proof (Hs 6%nat). lia.
Qed.

(** ** Non-vacuity *)
Example upload_example : ∃ folder st s st', NoDup folder.*1 ∧ interrupted id folder st s ∧
  upload_main id false true folder s = (Some st', false) ∧ st !! "a" = Some "1" ∧ s !! "a" = None ∧ s !! "c" = Some "3" ∧ st' !! "a" = Some "2" ∧ st' !! "b" = Some "0".
Proof.
  exists [("c", "3"); ("a", "2")], (<["a" := "1"]> {["b" := "0"]}). eexists _, _.
  split; [apply NoDup_cons; split; [set_solver|apply NoDup_singleton]|]. split; [eapply int_run with (force := false) (replace := true) (k := 2%nat); [apply int_start|vm_compute; reflexivity]|].
  split; [vm_compute; reflexivity|]. repeat split; vm_compute; reflexivity.
Qed.
Example verify_example : verify_release 60000 0 (λ k, (3 <=? k)%nat) (λ k, Z.of_nat k * 100) 9 = Ok (Some [10; 20; 40]) ∧
  verify_release 60000 0 (λ _, false) (λ k, Z.of_nat k * 500) 9 = Raise AssertionError.
Proof. split; vm_compute; reflexivity. Qed.
Print Assumptions C90_upload. Print Assumptions C90_crash. Print Assumptions C90_killed. Print Assumptions C90_careful. Print Assumptions C90_gap.
Print Assumptions C90_gap_refuted. Print Assumptions C90_verify. Print Assumptions C90_eight.
