(** * Reading the texts of a PolicyLogger. *)
From Coq Require Import Ascii String DecimalString DecimalZ.
From Verif Require Import DimacsProofs ExternalProofs ConstraintProofs RepositoryProofs.
From Verif Require Export LogText SpecLogText.
Local Open Scope string_scope.
Local Open Scope list_scope.

(** ** Words *)
Lemma one_word_solid s : one_word s → solid s.
Proof. intros H. exact H. Qed.
Definition blank_start (s : string) : Prop := words_from s = ("", py_words s).
Lemma blank_start_nil : blank_start "".
Proof. done. Qed.
Lemma blank_start_cons c s : is_white c = true → blank_start (String c s).
Proof. intros Hc. unfold blank_start, py_words. cbn [words_from]. destruct (words_from s). by rewrite Hc. Qed.
Lemma solid1 c : is_white c = false → solid (String c "").
Proof. intros H. split; [done|]. intros x Hx. cbn in Hx. apply elem_of_cons in Hx as [->|Hx]; [done|by apply elem_of_nil in Hx]. Qed.
Lemma pw_blank c s : is_white c = true → py_words (String c s) = py_words s.
Proof. intros Hc. unfold py_words. cbn [words_from]. destruct (words_from s) as [w ws]. by rewrite Hc, decide_True. Qed.
Lemma pw_sp s : py_words (" " +:+ s) = py_words s.
Proof. exact (pw_blank " "%char s eq_refl). Qed.
Lemma bs_sp s : blank_start (" " +:+ s).
Proof. exact (blank_start_cons " "%char s eq_refl). Qed.
Lemma pw_word w s : solid w → blank_start s → py_words (w +:+ s) = w :: py_words s.
Proof. intros [Hw Hc] Hs. unfold py_words at 1. rewrite (words_solid w s _ Hc Hs). by rewrite decide_False. Qed.
Lemma pw_one w : solid w → py_words w = [w].
Proof. intros H. rewrite <-(s_nil_r w) at 1. by rewrite pw_word. Qed.
Lemma pw_spaces n s : py_words (fill_str n " " +:+ s) = py_words s.
Proof. induction n as [|n IH]; [done|]. change (fill_str (S n) " " +:+ s) with (String " " (fill_str n " " +:+ s)). by rewrite pw_blank. Qed.
Lemma solid_dots v n : solid v → solid (v +:+ dots n).
Proof.
  intros [Hv Hc]. split; [by destruct v|]. intros c. rewrite chars_app, elem_of_app. intros [H|H]; [by apply Hc|].
  induction n as [|n IH]; [by apply elem_of_nil in H|]. apply elem_of_cons in H as [->|H]; [done|by apply IH].
Qed.
Lemma fill_dots n : fill_str n "." = dots n.
Proof. induction n as [|n IH]; [done|]. cbn. by rewrite IH. Qed.
Lemma numeral_inj a b : numeral a = numeral b → a = b.
Proof. intros H. pose proof (read_str a) as Ha. pose proof (read_str b) as Hb. unfold numeral in H. unfold str_of_Z in *. rewrite H in Ha. congruence. Qed.
Lemma digits_not z s : (∃ c, c ∈ chars s ∧ (N_of_ascii c <? 45)%N || (57 <? N_of_ascii c)%N = true) → numeral z ≠ s.
Proof. intros (c & Hc & H) E. subst s. exact (str_lacks c z H Hc). Qed.

(** ** The words of a report are unambiguous *)
Section unique.
  Context (po po' : pool) (vstr vstr' : version → string).
  Lemma names_len p v k ws : names_package p v k ws → ∃ a b c, ws = [a; b; numeral k; c].
  Proof. intros (q & n & _ & ->). by eauto. Qed.
  Lemma value_inj o o' : word_of o = word_of o' → o = o'.
  Proof. by destruct o as [[]|], o' as [[]|]. Qed.
  Lemma header_inj line kb kb' : header_says po vstr line kb → header_says po' vstr' line kb' → kb = kb'.
  Proof.
    intros (ws & (a & b & c & ->)%names_len & E) (ws' & (a' & b' & c' & ->)%names_len & E'). rewrite E in E'. cbn in E'.
    injection E' as -> -> Hk -> Hv. apply numeral_inj in Hk. destruct kb as [k x], kb' as [k' x']. cbn in *. subst.
    f_equal. by destruct x, x'.
  Qed.
  Lemma change_inj line c c' : change_says po vstr line c → change_says po' vstr' line c' → c = c'.
  Proof.
    intros (_ & ws & (x & y & z & ->)%names_len & E) (_ & ws' & (x' & y' & z' & ->)%names_len & E'). rewrite E in E'. cbn in E'.
    injection E' as Ho Hn -> -> Hk ->. apply numeral_inj in Hk. apply value_inj in Ho, Hn.
    destruct c as [k [o n]], c' as [k' [o' n']]. cbn in *. by subst.
  Qed.
  Lemma decision_inj line i R I k i' R' I' k' : decision_says po vstr line i R I k → decision_says po' vstr' line i' R' I' k' →
    i = i' ∧ R = R' ∧ I = I' ∧ k = k'.
  Proof.
    intros (_ & ws & (x & y & z & ->)%names_len & E) (_ & ws' & (x' & y' & z' & ->)%names_len & E'). rewrite E in E'.
    destruct R, I, R', I'; try discriminate E'; cbn in E'; injection E' as Hi _ _ Hk _ || injection E' as Hi Hk;
      apply numeral_inj in Hi; apply numeral_inj in Hk; repeat split; lia.
  Qed.
End unique.

Section unique_lines.
  Context (po po' : pool) (vstr vstr' : version → string).
  Notation heads := (Forall2 (header_says po vstr)).
  Notation heads' := (Forall2 (header_says po' vstr')).
  Lemma Forall2_inj {A B} (R R' : A → B → Prop) l k k' : (∀ x y y', R x y → R' x y' → y = y') → Forall2 R l k → Forall2 R' l k' → k = k'.
  Proof.
    intros H H1. revert k'. induction H1 as [|x y l k Hx Hl IH]; intros k' H2; inversion_clear H2; [done|]. f_equal; [by eapply H|by apply IH].
  Qed.
  (** A line that starts a decision, or no line. *)
  Definition starts (l : list string) : Prop := l = [] ∨ ∃ line r p v i R I k, l = line :: r ∧ decision_says p v line i R I k.
  Lemma reports_starts ls body : Forall2 (reports po vstr) body ls → starts (mjoin body).
  Proof.
    intros H. inversion_clear H as [|ts l body' ls' H1 H2]; [by left|]. right.
    destruct H1 as (first & below & -> & Hd & _). eexists first, _, po, vstr, _, _, _, _. split; [reflexivity|exact Hd].
  Qed.
  (** The indented lines at the front are determined. *)
  Lemma indented_front a b r r' : Forall indented a → Forall indented b → (∀ x t, r = x :: t → ¬ indented x) → (∀ x t, r' = x :: t → ¬ indented x) →
    a ++ r = b ++ r' → a = b ∧ r = r'.
  Proof.
    intros Ha. revert b. induction Ha as [|x a Hx Ha IH]; intros b Hb Hr Hr' E.
    - destruct Hb as [|y b Hy Hb]; [done|]. exfalso. by apply (Hr y (b ++ r')).
    - destruct Hb as [|y b Hy Hb]; [exfalso; by apply (Hr' x (a ++ r))|]. injection E as -> E.
      destruct (IH b Hb Hr Hr' E) as [-> ->]. done.
  Qed.
  Lemma starts_not_indented l x t : starts l → l = x :: t → ¬ indented x.
  Proof. intros [->|(line & r & p & v & i & R & I & k & -> & [H _])]; [done|]. intros [= -> ->]. exact H. Qed.
  Lemma starts_words l x t : starts l → l = x :: t → (6 ≤ List.length (py_words x))%nat.
  Proof.
    intros [->|(line & r & p & v & i & R & I & k & -> & _ & ws & (a & b & c & ->)%names_len & E)]; [done|]. intros [= -> ->]. rewrite E.
    destruct R, I; cbn; lia.
  Qed.
  Lemma back_front (b b' : bool) r r' : starts r → starts r' →
    (if b then ["BACKTRACKED"; ""] else []) ++ r = (if b' then ["BACKTRACKED"; ""] else []) ++ r' → b = b' ∧ r = r'.
  Proof.
    intros H H' E. destruct b, b'; cbn in E; [by injection E|..|done].
    - exfalso. pose proof (starts_words r' _ _ H' (eq_sym E)) as Hl. vm_compute in Hl. lia.
    - exfalso. pose proof (starts_words r _ _ H E) as Hl. vm_compute in Hl. lia.
  Qed.
  Lemma lists_indented p v lines c : lists_changes p v lines c → Forall indented lines.
  Proof. intros (chs & _ & _ & H). clear -H. induction H as [|? ? ? ? [? _]]; by constructor. Qed.
  Lemma lists_inj lines c c' : lists_changes po vstr lines c → lists_changes po' vstr' lines c' → c = c'.
  Proof.
    intros (chs & P & _ & H) (chs' & P' & _ & H'). pose proof (Forall2_inj _ _ _ _ _ (change_inj po po' vstr vstr') H H') as <-.
    rewrite <-(list_to_map_to_list c), <-(list_to_map_to_list c'). apply list_to_map_proper; [apply NoDup_fst_map_to_list|by rewrite <-P, <-P'].
  Qed.
  Lemma bodies_inj body body' ls ls' : Forall2 (reports po vstr) body ls → Forall2 (reports po' vstr') body' ls' →
    mjoin body = mjoin body' → ls = ls'.
  Proof.
    intros H. revert body' ls'. induction H as [|ts l body ls Hl Hls IH]; intros body' ls' H' E.
    - destruct H' as [|ts' l' body' ls' (f & b & -> & _) _]; [done|discriminate E].
    - destruct H' as [|ts' l' body' ls' Hl' Hls']; [destruct Hl as (f & b & -> & _); discriminate E|].
      pose proof (reports_starts _ _ Hls) as S.
      assert (S' : starts (mjoin body')).
      { clear -Hls'. inversion_clear Hls' as [|ts l body2 ls2 H1 H2]; [by left|]. right.
        destruct H1 as (first & below & -> & Hd & _). eexists first, _, po', vstr', _, _, _, _. split; [reflexivity|exact Hd]. }
      destruct Hl as (f & b & -> & Hd & Hc), Hl' as (f' & b' & -> & Hd' & Hc').
      change (mjoin ((f :: b ++ (if ll_backtracked l then ["BACKTRACKED"; ""] else [])) :: body)) with
        (f :: ((b ++ (if ll_backtracked l then ["BACKTRACKED"; ""] else [])) ++ mjoin body)) in E.
      change (mjoin ((f' :: b' ++ (if ll_backtracked l' then ["BACKTRACKED"; ""] else [])) :: body')) with
        (f' :: ((b' ++ (if ll_backtracked l' then ["BACKTRACKED"; ""] else [])) ++ mjoin body')) in E.
      injection E as <- E. rewrite <-!(assoc_L (++)) in E.
      apply indented_front in E as [<- E]; [|by eapply lists_indented..| |].
      2:{ intros x t. destruct (ll_backtracked l); cbn; [intros [= <- <-] [r [=]]|by apply starts_not_indented]. }
      2:{ intros x t. destruct (ll_backtracked l'); cbn; [intros [= <- <-] [r [=]]|by apply starts_not_indented]. }
      apply back_front in E as [Hb E]; [|done..]. rewrite (IH _ _ Hls' E). f_equal.
      destruct (decision_inj _ _ _ _ _ _ _ _ _ _ _ _ _ Hd Hd') as (Hi & HR & HI & Hk). pose proof (lists_inj _ _ _ Hc Hc') as Hcc.
      destruct l, l'. cbn in *. by subst.
  Qed.
  Lemma header_words p v line kb : header_says p v line kb → ∃ a b n c w, py_words line = [a; b; n; c; ":"; w].
  Proof. intros (ws & (a & b & c & ->)%names_len & E). rewrite E. by eauto 10. Qed.
  Lemma header_no_start p v line kb l r : header_says p v line kb → starts l → l ≠ line :: r.
  Proof.
    intros (a & b & n & c & w & E)%header_words [->|(line' & r' & p' & v' & i & R & I & k & -> & _ & ws & (x & y & z & ->)%names_len & E')]; [done|].
    intros [= -> ->]. rewrite E in E'. destruct R, I; cbn in E'; try discriminate E'. injection E' as _ _ _ _ E' _.
    exact (digits_not k ":" (ex_intro _ ":"%char (conj (elem_of_list_here _ _) eq_refl)) (eq_sym E')).
  Qed.
  Lemma heads_inj hs hs' chs chs' r r' : heads hs chs → heads' hs' chs' → starts r → starts r' → hs ++ r = hs' ++ r' → chs = chs' ∧ r = r'.
  Proof.
    intros H. revert hs' chs'. induction H as [|h kb hs chs Hh Hhs IH]; intros hs' chs' H' S S' E.
    - destruct H' as [|h' kb' hs' chs' Hh' _]; [done|]. exfalso. exact (header_no_start _ _ _ _ _ _ Hh' S E).
    - destruct H' as [|h' kb' hs' chs' Hh' Hhs']; [exfalso; exact (header_no_start _ _ _ _ _ _ Hh S' (eq_sym E))|].
      injection E as <- E. destruct (IH _ _ Hhs' S S' E) as [-> ->]. split; [|done]. f_equal. by eapply header_inj.
  Qed.
  (** Old values are not printed. *)
  Definition new_values (h : option changelog) : gmap Z bool := omap snd (default ∅ h).
  Lemma new_lookup c chs : NoDup chs.*1 → (∀ k b, (k, b) ∈ chs ↔ ∃ old, c !! k = Some (old, Some b)) → new_values (Some c) = list_to_map chs.
  Proof.
    intros ND H. apply map_eq. intros k. change (new_values (Some c)) with (omap snd c : gmap Z bool). apply option_eq. intros b. rewrite lookup_omap.
    rewrite <-elem_of_list_to_map by done. rewrite H. change ((c !! k) ≫= snd = Some b ↔ ∃ old, c !! k = Some (old, Some b)). destruct (c !! k) as [[o n]|]; cbn.
    - split; [intros ->; by eauto|]. by intros [old [= _ ->]].
    - split; [done|]. by intros [old [=]].
  Qed.
  Lemma report_says_inj text h h' ls ls' : (h = None ↔ h' = None) → report_says po vstr text h ls → report_says po' vstr' text h' ls' →
    new_values h = new_values h' ∧ ls = ls'.
  Proof.
    intros HN (hd & body & Hh & Hb & E) (hd' & body' & Hh' & Hb' & E'). rewrite E in E'. clear E.
    pose proof (reports_starts _ _ Hb) as S.
    assert (S' : starts (mjoin body')).
    { clear -Hb'. inversion_clear Hb' as [|ts l body2 ls2 H1 H2]; [by left|]. right.
      destruct H1 as (first & below & -> & Hd & _). eexists first, _, po', vstr', _, _, _, _. split; [reflexivity|exact Hd]. }
    assert (Hnil : ∀ r l, starts r → r ≠ "" :: l).
    { intros r l Hr ->. pose proof (starts_words _ _ _ Hr eq_refl) as Hl. vm_compute in Hl. lia. }
    assert (Hnh : ∀ p v kb, ¬ header_says p v "" kb).
    { intros p v kb (a & b & n & c & w & E)%header_words. discriminate E. }
    destruct h as [c|], h' as [c'|]; [|naive_solver..|].
    - destruct Hh as (chs & ND & Hc & Hh), Hh' as (chs' & ND' & Hc' & Hh'). rewrite !(new_lookup _ _ ND Hc), !(new_lookup _ _ ND' Hc').
      assert (E : hd ++ mjoin body = hd' ++ mjoin body').
      { assert (hd ≠ []) by (destruct Hh as [[_ ->]|[Hn Hh]]; [done|]; inversion Hh; by subst).
        assert (hd' ≠ []) by (destruct Hh' as [[_ ->]|[Hn Hh']]; [done|]; inversion Hh'; by subst).
        by destruct hd, hd'. }
      destruct Hh as [[-> ->]|[Hn Hh]], Hh' as [[-> ->]|[Hn' Hh']].
      + injection E as E. split; [done|]. by eapply bodies_inj.
      + exfalso. inversion Hh'; subst; [done|]. injection E as <- _. by eapply Hnh.
      + exfalso. inversion Hh; subst; [done|]. injection E as -> _. by eapply Hnh.
      + destruct (heads_inj _ _ _ _ _ _ Hh Hh' S S' E) as [-> E2]. split; [done|]. by eapply bodies_inj.
    - cbn in Hh, Hh'. subst hd hd'. split; [done|]. cbn [app] in E'.
      assert (E : mjoin body = mjoin body').
      { destruct (mjoin body) as [|x l], (mjoin body') as [|x' l']; [done|..|done]; exfalso; [exact (Hnil _ _ S' (eq_sym E'))|exact (Hnil _ _ S E')]. }
      by eapply bodies_inj.
  Qed.
End unique_lines.

(** ** The texts are read back *)
Definition nl10 : ascii := ascii_of_N 10.
Lemma solid_lacks s : solid s → lacks nl10 s.
Proof. intros [_ H] Hc. apply H in Hc. discriminate Hc. Qed.
Lemma fill_lacks n : lacks nl10 (fill_str n " ").
Proof. induction n as [|n IH]; [by intros ?%elem_of_nil|]. apply lacks_cons. split; [discriminate|done]. Qed.
Lemma numeral_str z : str_of_Z z = numeral z.
Proof. done. Qed.
Lemma value_word o : py_value o = word_of o.
Proof. by destruct o as [[]|]. Qed.
Lemma value_solid o : solid (word_of o).
Proof.
  destruct o as [[]|]; (split; [done|]); intros c Hc; cbn in Hc; repeat (apply elem_of_cons in Hc as [->|Hc]; [done|]); by apply elem_of_nil in Hc.
Qed.
Lemma lines_nonempty s : ∃ l ls, text_lines s = l :: ls.
Proof. induction s as [|c s (l & ls & IH)]; [by eexists _, _|]. cbn [text_lines]. rewrite IH. case_decide; by eexists _, _. Qed.
Lemma lines_one s : lacks nl10 s → text_lines s = [s].
Proof. induction s as [|c s IH]; [done|]. intros [Hc Hs]%lacks_cons. cbn [text_lines]. rewrite (IH Hs), decide_False; [done|]. intros ->. by apply Hc. Qed.
Lemma lines_app a b : text_lines (a +:+ nl_str +:+ b) = text_lines a ++ text_lines b.
Proof.
  induction a as [|c a IH]; [done|]. change (String c a +:+ nl_str +:+ b) with (String c (a +:+ nl_str +:+ b)). cbn [text_lines]. rewrite IH.
  destruct (lines_nonempty a) as (l & ls & ->). by case_decide.
Qed.
Lemma lines_join l : l ≠ [] → text_lines (str_join nl_str l) = mjoin (text_lines <$> l).
Proof.
  intros Hne. induction l as [|x [|y l] IH]; [done|..].
  - cbn. by rewrite app_nil_r.
  - change (str_join nl_str (x :: y :: l)) with (x +:+ nl_str +:+ str_join nl_str (y :: l)). rewrite lines_app, IH by done. done.
Qed.
Lemma tab_lines first shown : lacks nl10 first → Forall (lacks nl10) shown →
  text_lines (first +:+ match shown with [] => "" | _ => str_join (nl_str +:+ tab_str) ("" :: shown) end) = first :: (String (ascii_of_N 9) <$> shown).
Proof.
  intros Hf Hs. revert first Hf. induction Hs as [|s shown Hs Hss IH]; intros first Hf; [by rewrite s_nil_r, lines_one|].
  destruct shown as [|s' shown].
  - change (str_join (nl_str +:+ tab_str) ["" ; s]) with (nl_str +:+ String (ascii_of_N 9) s). rewrite lines_app, !lines_one; [done|..|done].
    apply lacks_cons. split; [discriminate|done].
  - assert (Hs2 : lacks nl10 (String (ascii_of_N 9) s)) by (apply lacks_cons; split; [discriminate|done]).
    specialize (IH _ Hs2).
    change (first +:+ str_join (nl_str +:+ tab_str) ("" :: s :: s' :: shown)) with
      (first +:+ nl_str +:+ (String (ascii_of_N 9) (s +:+ (nl_str +:+ tab_str) +:+ str_join (nl_str +:+ tab_str) (s' :: shown)))).
    rewrite lines_app, (lines_one first) by done. cbn [app fmap list_fmap]. f_equal. etransitivity; [|exact IH]. done.
Qed.

Section read.
  Context (po : pool) (vstr : version → string) (Hpo : plain_pool po vstr).
  Notation pretty := (pretty_pkg_id po vstr).
  Lemma pretty_ok k : is_ok (pretty k) = is_ok (id_to_package po k).
  Proof. unfold pretty_pkg_id. by destruct (id_to_package po k). Qed.
  Lemma pretty_words k t : pretty k = Ok t → lacks nl10 t ∧ ∃ ws, names_package po vstr k ws ∧ ∀ s, blank_start s → py_words (t +:+ s) = ws ++ py_words s.
  Proof.
    unfold pretty_pkg_id. destruct (id_to_package po k) as [p|] eqn:E; [|done]. cbn [mbind res_bind]. intros [= <-].
    destruct (Hpo k p E) as (Hn%one_word_solid & Hv%one_word_solid & Hr%one_word_solid). rewrite numeral_str. pose proof (numeral_solid k) as Hk.
    unfold ljust, rjust. set (m := (30 - _)%nat). set (m' := (3 - _)%nat). set (repo := default "installed" (p_repo p)) in *.
    assert (Htail : ∀ s, blank_start s → py_words (" " +:+ (fill_str m' " " +:+ numeral k) +:+ " " +:+ repo +:+ s) = [numeral k; repo] ++ py_words s).
    { intros s Hs. rewrite pw_sp. rewrite s_assoc, pw_spaces, pw_word; [|done|by apply bs_sp].
      rewrite pw_sp. by rewrite pw_word. }
    split.
    - rewrite !lacks_app. repeat split; try (by apply solid_lacks); try (by apply lacks_cons; split; [discriminate|]; intros ?%elem_of_nil); [|apply fill_lacks].
      case_decide; [apply fill_lacks|]. rewrite fill_dots. clearbody m. clear. induction m as [|m IH]; [by intros ?%elem_of_nil|]. by apply lacks_cons.
    - case_decide as He.
      + eexists. split; [exists p, 0%nat; split; [done|reflexivity]|]. intros s Hs. rewrite s_nil_r, !s_assoc.
        rewrite pw_word; [|done|by apply bs_sp]. rewrite pw_sp. rewrite <-(s_assoc (fill_str m' " ")).
        rewrite pw_word; [|done|]. 2:{ destruct m; by apply blank_start_cons. }
        rewrite pw_spaces, Htail by done. done.
      + eexists. split; [exists p, m; split; [done|reflexivity]|]. intros s Hs. rewrite !s_assoc.
        rewrite pw_word; [|done|by apply bs_sp]. rewrite pw_sp. rewrite fill_dots.
        rewrite <-(s_assoc (fill_str m' " ")). rewrite <-(s_assoc (vstr _)).
        rewrite pw_word; [|by apply solid_dots|by apply bs_sp]. rewrite Htail by done. done.
  Qed.
End read.

(** ** Known and unknown packages *)
Section known.
  Context (po : pool).
  Definition known (k : Z) : Prop := is_ok (id_to_package po k) = true.
  Lemma unknown_raises k : ¬ known k → id_to_package po k = Raise ValueError.
  Proof. unfold known, id_to_package. destruct (zdict_get (po_i2p po) k); cbn; [intros H; exfalso; by apply H|done]. Qed.
  Lemma known_ok k : known k → ∃ p, id_to_package po k = Ok p.
  Proof. unfold known. destruct (id_to_package po k); [by eauto|done]. Qed.
  Lemma mapM_known {A B} (f : A → res B) (id : A → Z) (l : list A) :
    (∀ x, known (id x) → ∃ y, f x = Ok y) → (∀ x, ¬ known (id x) → f x = Raise ValueError) →
    ((∀ x, x ∈ l → known (id x)) ∧ ∃ r, mapM_res f l = Ok r ∧ Forall2 (λ x y, f x = Ok y) l r) ∨
    ((∃ x, x ∈ l ∧ ¬ known (id x)) ∧ mapM_res f l = Raise ValueError).
  Proof.
    intros Hok Hno. induction l as [|x l IH].
    - left. split; [by intros ? ?%elem_of_nil|]. by exists [].
    - cbn [mapM_res]. destruct (decide (is_ok (id_to_package po (id x)) = true)) as [Hk|Hk].
      + destruct (Hok x Hk) as [y Hy]. rewrite Hy. cbn [mbind res_bind]. destruct IH as [(Hl & r & -> & Hr)|((z & Hz & Hzk) & ->)].
        * left. split; [by intros z [->|Hz]%elem_of_cons; [|apply Hl]|]. exists (y :: r). split; [done|]. by constructor.
        * right. split; [|done]. exists z. split; [by right|done].
      + right. rewrite (Hno x Hk). split; [|done]. exists x. split; [left|done].
  Qed.
  Lemma known_keys_cases c :
    (known_keys (name_of po) c = Ok () ∧ ∀ k, is_Some (c !! k) → known k) ∨
    (known_keys (name_of po) c = Raise ValueError ∧ ∃ k, is_Some (c !! k) ∧ ¬ known k).
  Proof.
    assert (H : ∀ l, (foldM (λ _ k, n ← name_of po k; Ok ()) l () = Ok () ∧ ∀ k, k ∈ l → known k) ∨
                     (foldM (λ _ k, n ← name_of po k; Ok ()) l () = Raise ValueError ∧ ∃ k, k ∈ l ∧ ¬ known k)).
    { intros l. induction l as [|k l IH]; [left; split; [done|by intros ? ?%elem_of_nil]|]. cbn [foldM].
      assert (name_of po k = match id_to_package po k with Ok p => Ok (p_name p) | Raise e => Raise e end) as -> by (unfold name_of; by destruct (id_to_package po k)).
      destruct (decide (is_ok (id_to_package po k) = true)) as [Hk|Hk].
      - destruct (known_ok k Hk) as [p ->]. cbn [mbind res_bind]. destruct IH as [[-> IH]|[-> (z & Hz & Hn)]].
        + left. split; [done|]. by intros z [->|Hz]%elem_of_cons; [|apply IH].
        + right. split; [done|]. exists z. split; [by right|done].
      - right. rewrite (unknown_raises k Hk). split; [done|]. exists k. split; [left|done]. }
    unfold known_keys. destruct (H (map_to_list c).*1) as [[-> Hl]|[-> (k & Hk & Hn)]].
    - left. split; [done|]. intros k [v Hv]. apply Hl. apply elem_of_list_fmap. exists (k, v). split; [done|]. by apply elem_of_map_to_list.
    - right. split; [done|]. apply elem_of_list_fmap in Hk as ([k' v] & -> & Hv%elem_of_map_to_list). exists k'. by split; [eexists|].
  Qed.
End known.

Section sorted.
  Context (po : pool).
  Notation keyed := ((string * version) * (Z * (option bool * option bool)))%type.
  Lemma log_key_trans (a b c : keyed) : log_key_lt a b = true → log_key_lt b c = true → log_key_lt a c = true.
  Proof.
    unfold log_key_lt. rewrite !orb_true_iff, !andb_true_iff, !bool_decide_eq_true, !ver_ltb_vlt. unfold vlt.
    intros [H1|[H1 H2]] [H3|[H3 H4]]; [left; by eapply str_ltb_trans|left; congruence|left; congruence|right; split; [congruence|lia]].
  Qed.
  Lemma log_key_asym (a b : keyed) : log_key_lt a b = true → log_key_lt b a = false.
  Proof.
    intros H. destruct (log_key_lt b a) eqn:H'; [|done]. exfalso. pose proof (log_key_trans _ _ _ H H') as E.
    unfold log_key_lt in E. rewrite str_ltb_irrefl, orb_false_l, andb_true_iff, ver_ltb_vlt in E. destruct E as [_ E]. unfold vlt in E. lia.
  Qed.
  Lemma log_key_false (a b : keyed) : log_key_lt b a = false ↔ str_ltb a.1.1 b.1.1 = true ∨ (a.1.1 = b.1.1 ∧ vle a.1.2 b.1.2).
  Proof.
    unfold log_key_lt. rewrite orb_false_iff, andb_false_iff, bool_decide_eq_false, ver_ltb_false. split.
    - intros [H1 H2]. destruct (str_total a.1.1 b.1.1) as [?|[E|?]]; [by left|right; split; [done|]; destruct H2; congruence|congruence].
    - intros [H|[E H]]; [split; [by apply str_ltb_asym|left; intros E; rewrite E, str_ltb_irrefl in H; done]|].
      split; [by rewrite E, str_ltb_irrefl|by right].
  Qed.
  Lemma log_key_cotrans (a b c : keyed) : log_key_lt b a = false → log_key_lt c b = false → log_key_lt c a = false.
  Proof.
    rewrite !log_key_false. rewrite !vle_iff. intros [H1|[H1 H2]] [H3|[H3 H4]];
      [left; by eapply str_ltb_trans|left; congruence|left; congruence|right; split; [congruence|lia]].
  Qed.
  Definition key_ok (x : keyed) : Prop := ∃ p, id_to_package po x.2.1 = Ok p ∧ x.1 = (p_name p, p_version p).
  Lemma sorted_cases items c : items c ≡ₚ map_to_list c →
    ((∀ k, is_Some (c !! k) → known po k) ∧ ∃ l, sorted_items po items c = Ok l ∧ l.*2 ≡ₚ map_to_list c ∧ Forall key_ok l ∧
       StronglySorted (λ a b, log_key_lt b a = false) l) ∨
    ((∃ k, is_Some (c !! k) ∧ ¬ known po k) ∧ sorted_items po items c = Raise ValueError).
  Proof.
    intros P. unfold sorted_items. set (f := λ pc : Z * (option bool * option bool), _).
    destruct (mapM_known po f fst (items c)) as [(Hl & r & E & Hr)|((x & Hx & Hk) & E)].
    - intros x [p Hp]%known_ok. unfold f. rewrite Hp. cbn. by eauto.
    - intros x Hx. unfold f. by rewrite (unknown_raises po _ Hx).
    - left. split; [intros k [v Hv]; apply (Hl (k, v)); by rewrite P, elem_of_map_to_list|]. rewrite E. cbn [mbind res_bind]. eexists. split; [reflexivity|].
      assert (Hk : Forall key_ok r ∧ r.*2 = items c).
      { clear -Hr. induction Hr as [|x y l r Hx Hr [IH1 IH2]]; [by split|]. unfold f in Hx. destruct (id_to_package po x.1) as [p|] eqn:E; [|done].
        injection Hx as <-. split; [constructor; [|done]; exists p; done|]. cbn. by rewrite IH2. }
      destruct Hk as [Hk Hs]. repeat split.
      + by rewrite sort_by_perm, Hs.
      + by rewrite sort_by_perm.
      + apply sort_by_sorted; [exact log_key_asym|exact log_key_cotrans].
    - right. rewrite E. split; [|done]. rewrite P in Hx. destruct x as [k v]. apply elem_of_map_to_list in Hx. exists k. by split; [eexists|].
  Qed.
End sorted.

(** ** The whole text *)
Section whole.
  Context (po : pool) (vstr : version → string) (items : changelog → list (Z * (option bool * option bool))) (wa : bool) (m : log_meta).
  Context (Hpo : plain_pool po vstr) (Hitems : ∀ c, items c ≡ₚ map_to_list c).
  Notation pretty := (pretty_pkg_id po vstr).
  Notation keyed := ((string * version) * (Z * (option bool * option bool)))%type.

  Lemma pretty_known k : known po k → ∃ t, pretty k = Ok t.
  Proof. intros [p E]%known_ok. unfold pretty_pkg_id. rewrite E. cbn. by eauto. Qed.
  Lemma pretty_unknown k : ¬ known po k → pretty k = Raise ValueError.
  Proof. intros H%unknown_raises. unfold pretty_pkg_id. by rewrite H. Qed.

  Lemma fill_spaces_word n s w : solid w → blank_start s → py_words (w +:+ fill_str n " " +:+ s) = w :: py_words s.
  Proof. intros Hw Hs. rewrite pw_word; [by rewrite pw_spaces|done|]. destruct n; [done|]. by apply blank_start_cons. Qed.
  Lemma sp_lacks : lacks nl10 " ".
  Proof. apply lacks_cons. split; [discriminate|by intros ?%elem_of_nil]. Qed.
  Lemma change_line_says x t : change_line po vstr x = Ok t → lacks nl10 t ∧ change_says po vstr (String (ascii_of_N 9) t) x.2.
  Proof.
    unfold change_line. destruct (pretty x.2.1) as [p|] eqn:E; [|done]. cbn [mbind res_bind]. intros [= <-].
    destruct (pretty_words po vstr Hpo _ _ E) as (Hlk & ws & Hn & Hw). rewrite !value_word.
    pose proof (value_solid x.2.2.1) as S1. pose proof (value_solid x.2.2.2) as S2. unfold ljust.
    set (n1 := (10 - _)%nat). set (n2 := (10 - String.length (word_of x.2.2.2))%nat).
    split.
    - rewrite !lacks_app. repeat split; try (by apply solid_lacks); try apply fill_lacks; try done;
        repeat (apply lacks_cons; split; [discriminate|]); by intros ?%elem_of_nil.
    - split; [by eexists|]. exists ws. split; [done|]. rewrite pw_blank by done. rewrite !s_assoc.
      rewrite fill_spaces_word; [|done|by apply blank_start_cons].
      change (py_words (" - " +:+ ?a)) with (py_words (" " +:+ "-" +:+ " " +:+ a)).
      assert (Hd : solid "-") by (by apply solid1).
      assert (Hc : solid ":") by (by apply solid1).
      rewrite pw_sp, pw_word; [|done|apply bs_sp]. rewrite pw_sp.
      rewrite fill_spaces_word; [|done|by apply blank_start_cons].
      change (py_words (" : " +:+ p)) with (py_words (" " +:+ ":" +:+ " " +:+ p)).
      rewrite pw_sp, pw_word; [|done|apply bs_sp]. rewrite pw_sp.
      rewrite <-(s_nil_r p), Hw by done. change (py_words "") with (@nil string). by rewrite app_nil_r.
  Qed.
  Lemma not_indented n w s : solid w → ¬ indented (fill_str n " " +:+ w +:+ s).
  Proof.
    intros [Hw Hc] [r Hr]. destruct n as [|n]; [|discriminate Hr]. destruct w as [|c w]; [done|].
    injection Hr as -> _. specialize (Hc (ascii_of_N 9) (elem_of_list_here _ _)). discriminate Hc.
  Qed.
  Lemma decision_line_says (i : nat) (R I : bool) k p : pretty k = Ok p →
    let line := rjust 4 (str_of_Z (Z.of_nat i)) +:+ " " +:+ (if R then "R" else " ") +:+ (if I then "I" else " ") +:+ " - " +:+ p in
    lacks nl10 line ∧ decision_says po vstr line i R I k.
  Proof.
    intros E line. destruct (pretty_words po vstr Hpo _ _ E) as (Hlk & ws & Hn & Hw). unfold line, rjust. rewrite numeral_str.
    pose proof (numeral_solid (Z.of_nat i)) as Hi. set (n := (4 - _)%nat). split; [|split].
    - rewrite !lacks_app. repeat split; try (by apply solid_lacks); try apply fill_lacks; try done; try (destruct R); try (destruct I);
        repeat (apply lacks_cons; split; [discriminate|]); by intros ?%elem_of_nil.
    - rewrite s_assoc. by apply not_indented.
    - exists ws. split; [done|]. rewrite !s_assoc, pw_spaces. rewrite pw_word; [|done|apply bs_sp]. rewrite pw_sp. cbn [app]. f_equal.
      assert (Ht : py_words (" - " +:+ p) = "-" :: ws).
      { change (" - " +:+ p) with (" " +:+ "-" +:+ " " +:+ p). rewrite pw_sp, pw_word; [|by apply solid1|apply bs_sp].
        rewrite pw_sp. rewrite <-(s_nil_r p), Hw by done. change (py_words "") with (@nil string). by rewrite app_nil_r. }
      destruct R, I; cbn [flags app].
      + change ("R" +:+ "I" +:+ " - " +:+ p) with ("RI" +:+ " - " +:+ p). rewrite pw_word; [by rewrite Ht| |by apply (blank_start_cons " "%char)].
        split; [done|]. intros c Hc. cbn in Hc. do 2 (apply elem_of_cons in Hc as [->|Hc]; [done|]). by apply elem_of_nil in Hc.
      + rewrite pw_word; [|by apply solid1|apply bs_sp].
        by rewrite pw_sp, Ht.
      + rewrite pw_sp. rewrite pw_word; [|by apply solid1|by apply (blank_start_cons " "%char)].
        by rewrite Ht.
      + by rewrite !pw_sp, Ht.
  Qed.

  Lemma filter_snd (q : keyed → bool) (P : Z * (option bool * option bool) → Prop) `{∀ x, Decision (P x)} l :
    (∀ x, x ∈ l → q x = true ↔ P x.2) → (List.filter q l).*2 = filter P (l.*2).
  Proof.
    induction l as [|x l IH]; intros Hq; [done|]. cbn [List.filter fmap list_fmap]. rewrite filter_cons.
    pose proof (Hq x (elem_of_list_here _ _)) as Hx. rewrite <-IH by (intros; apply Hq; by right).
    case_decide as HP; destruct (q x) eqn:E; try done; exfalso; [by apply Hx in HP|by apply HP, Hx].
  Qed.
  Lemma strongly_filter {A} (R : A → A → Prop) (q : A → bool) l : StronglySorted R l → StronglySorted R (List.filter q l).
  Proof.
    induction 1 as [|x l Hs IH Hx]; [constructor|]. cbn [List.filter]. destruct (q x); [|done]. constructor; [done|].
    apply Forall_forall. intros y [Hy _]%elem_of_list_In%filter_In. rewrite Forall_forall in Hx. apply Hx. by apply elem_of_list_In.
  Qed.
  Lemma sorted_not_after (l : list keyed) : Forall (key_ok po) l → StronglySorted (λ a b, log_key_lt b a = false) l → StronglySorted (not_after po) l.*2.*1.
  Proof.
    intros Hk Hs. induction Hs as [|x l Hs IH Hx]; [constructor|]. apply Forall_cons in Hk as [(p & Hp & Hpx) Hk]. cbn [fmap list_fmap].
    constructor; [by apply IH|]. apply Forall_forall. intros y. rewrite elem_of_list_fmap. intros (yk & -> & Hy). apply elem_of_list_fmap in Hy as (y' & -> & Hy).
    rewrite Forall_forall in Hx, Hk. specialize (Hx _ Hy). destruct (Hk _ Hy) as (q & Hq & Hqy). exists p, q. split; [done|]. split; [done|].
    apply log_key_false in Hx. rewrite Hpx, Hqy in Hx. cbn in Hx. destruct Hx as [Hx|Hx]; [left|by right].
    unfold str_ltb in Hx. by destruct (String.compare (p_name p) (p_name q)).
  Qed.
  Lemma existsb_back (l : list keyed) (c : changelog) : l.*2 ≡ₚ map_to_list c →
    existsb (λ x : keyed, bool_decide (x.2.2.2 = None)) l = existsb (λ kc, bool_decide (kc.2.2 = None)) (map_to_list c).
  Proof.
    intros P. apply eq_bool_prop_intro. rewrite !Is_true_true, !existsb_exists. split.
    - intros (x & Hx%elem_of_list_In & Hb). exists x.2. split; [|done]. apply elem_of_list_In. rewrite <-P. apply elem_of_list_fmap. by exists x.
    - intros (y & Hy%elem_of_list_In & Hb). rewrite <-P in Hy. apply elem_of_list_fmap in Hy as (x & -> & Hx). exists x. split; [by apply elem_of_list_In|done].
  Qed.

  Lemma filter_to_list (P : Z * (option bool * option bool) → Prop) `{∀ x, Decision (P x)} (c : changelog) :
    map_to_list (filter P c) ≡ₚ filter P (map_to_list c).
  Proof.
    rewrite map_filter_alt. apply map_to_list_to_map. apply NoDup_fmap_fst.
    - intros k v w [_ H1]%elem_of_list_filter [_ H2]%elem_of_list_filter. apply elem_of_map_to_list in H1, H2. congruence.
    - apply NoDup_filter, NoDup_map_to_list.
  Qed.
  Lemma decision_cases changes i sugg :
    match report_line (name_of po) wa m changes i sugg with
    | Ok ls => ∃ ts, decision_text po vstr items wa m changes i sugg = Ok ts ∧
        ((ls = [] ∧ ts = []) ∨ ∃ l, ls = [l] ∧ ts ≠ [] ∧ reports po vstr (mjoin (text_lines <$> ts)) l)
    | Raise e => decision_text po vstr items wa m changes i sugg = Raise e
    end.
  Proof.
    unfold report_line, decision_text.
    assert (name_of po sugg = match id_to_package po sugg with Ok p => Ok (p_name p) | Raise e => Raise e end) as -> by (unfold name_of; by destruct (id_to_package po sugg)).
    destruct (decide (is_ok (id_to_package po sugg) = true)) as [Hk|Hk].
    2:{ rewrite (unknown_raises po _ Hk), (pretty_unknown _ Hk). done. }
    destruct (known_ok po _ Hk) as [p Hp]. destruct (pretty_known _ Hk) as [t Ht]. rewrite Hp, Ht. cbn [mbind res_bind].
    destruct (changes !! S i) as [c|]; [|by exists []; split; [|left]].
    destruct (known_keys_cases po c) as [[E1 Hall]|[E1 (k & Hk1 & Hk2)]];
      destruct (sorted_cases po items c (Hitems c)) as [[Hall' (l & E2 & P & Hkey & Hs)]|[(k' & Hk3 & Hk4) E2]]; rewrite E1, E2; cbn [mbind res_bind];
      [|exfalso; by eapply Hk4, Hall|exfalso; by eapply Hk2, Hall'|done].
    set (q := λ x : keyed, bool_decide (x.1.1 ≠ p_name p)).
    assert (Hshown : ∃ shown, (if wa then mapM_res (change_line po vstr) (List.filter q l) else Ok []) = Ok shown ∧ Forall (lacks nl10) shown ∧
      lists_changes po vstr (String (ascii_of_N 9) <$> shown)
        (if wa then filter (λ kc : Z * (option bool * option bool), other_name (name_of po) (p_name p) kc.1 = true) c else ∅)).
    { destruct wa; [|exists []; split; [done|]; split; [done|]; exists []; rewrite map_to_list_empty; by repeat constructor].
      destruct (mapM_known po (change_line po vstr) (λ x : keyed, x.2.1) (List.filter q l)) as [(Hl & shown & E & Hsh)|((x & Hx & Hn) & E)].
      - intros x [y Hy]%pretty_known. unfold change_line. rewrite Hy. cbn. by eauto.
      - intros x Hx%pretty_unknown. unfold change_line. by rewrite Hx.
      - exists shown. split; [done|]. split.
        { clear -Hsh Hpo. induction Hsh as [|x y ls r Hx Hr IH]; constructor; [|done]. by apply (change_line_says x y Hx). }
        exists (List.filter q l).*2. split; [|split].
        + rewrite (filter_snd q (λ kc, other_name (name_of po) (p_name p) kc.1 = true)).
          * rewrite P. symmetry. apply filter_to_list.
          * intros x Hx. rewrite Forall_forall in Hkey. destruct (Hkey x Hx) as (p' & Hp' & E'). unfold q, other_name, name_of. rewrite Hp', E'. cbn. done.
        + apply sorted_not_after; [|by apply strongly_filter]. apply Forall_forall. intros x [Hx _]%elem_of_list_In%filter_In. rewrite Forall_forall in Hkey.
          apply Hkey. by apply elem_of_list_In.
        + clear -Hsh Hpo. induction Hsh as [|x y ls r Hx Hr IH]; constructor; [|done]. by apply (change_line_says x y Hx).
      - exfalso. apply Hn. apply elem_of_list_In, filter_In in Hx as [Hx _]. rewrite Forall_forall in Hkey.
        destruct (Hkey x) as (p' & Hp' & _); [by apply elem_of_list_In|]. unfold known. by rewrite Hp'. }
    destruct Hshown as (shown & -> & Hlk & Hlists). cbn [mbind res_bind]. eexists. split; [reflexivity|]. right. eexists. split; [reflexivity|]. split; [done|].
    rewrite (existsb_back l c P).
    destruct (decision_line_says i (bool_decide (sugg ∈ lm_required m)) (bool_decide (sugg ∈ lm_installed m)) sugg t Ht) as [Hl1 Hl2].
    eexists _, _. split; [|split; [exact Hl2|exact Hlists]]. cbn [ll_backtracked].
    change (fmap text_lines (?a :: ?b)) with (text_lines a :: (text_lines <$> b)).
    change (mjoin (text_lines ?a :: ?b)) with (text_lines a ++ mjoin b).
    pose proof (tab_lines _ shown Hl1 Hlk) as TL. rewrite !s_assoc in TL. rewrite TL. cbn [app]. f_equal. f_equal.
    destruct (existsb _ _); [|done]. vm_compute. done.
  Qed.

  Lemma decisions_cases changes suggs : ∀ i,
    match report_lines (name_of po) wa m changes i suggs with
    | Ok ls => ∃ ts body, decisions_text po vstr items wa m changes i suggs = Ok ts ∧ Forall2 (reports po vstr) body ls ∧
        mjoin (text_lines <$> ts) = mjoin body ∧ (ts = [] ↔ body = [])
    | Raise e => decisions_text po vstr items wa m changes i suggs = Raise e
    end.
  Proof.
    induction suggs as [|v suggs IH]; intros i; [by exists [], []|]. cbn [report_lines decisions_text].
    pose proof (decision_cases changes i v) as H. destruct (report_line (name_of po) wa m changes i v) as [ls|e]; [|by rewrite H].
    destruct H as (ts & -> & H). cbn [mbind res_bind]. specialize (IH (S i)).
    destruct (report_lines (name_of po) wa m changes (S i) suggs) as [ls'|e]; cbn [mbind res_bind]; [|by rewrite IH].
    destruct IH as (ts' & body' & -> & HF & E & En). cbn [mbind res_bind].
    destruct H as [[-> ->]|(l & -> & Hne & Hr)]; [by exists ts', body'|].
    exists (ts ++ ts'), (mjoin (text_lines <$> ts) :: body'). split; [done|]. split; [by constructor|]. split.
    - assert (∀ a b : list string, mjoin (text_lines <$> a ++ b) = mjoin (text_lines <$> a) ++ mjoin (text_lines <$> b)) as ->.
      { intros a b. induction a as [|x a IHa]; [done|]. cbn [fmap list_fmap app]. change (text_lines x ++ mjoin (text_lines <$> a ++ b) = (text_lines x ++ mjoin (text_lines <$> a)) ++ mjoin (text_lines <$> b)).
        by rewrite IHa, (assoc_L (++)). }
      by rewrite E.
    - split; [|done]. intros [? _]%app_eq_nil. done.
  Qed.
  Lemma header_cases c :
    match known_keys (name_of po) c with
    | Ok _ => ∃ t, header_text po vstr items c = Ok t ∧ header_lists po vstr (text_lines t) (Some (filter (λ kc : Z * (option bool * option bool), kc.2.2 ≠ None) c))
    | Raise e => header_text po vstr items c = Raise e
    end.
  Proof.
    unfold header_text.
    destruct (mapM_known po (header_line po vstr) fst (items c)) as [(Hl & r & E & Hr)|((x & Hx & Hk) & E)].
    { intros x [t Ht]%pretty_known. unfold header_line. rewrite Ht. cbn. by eauto. }
    { intros x Hx%pretty_unknown. unfold header_line. by rewrite Hx. }
    2:{ rewrite E. destruct (known_keys_cases po c) as [[-> Hall]|[-> _]]; [|done]. exfalso. apply Hk, Hall. rewrite Hitems in Hx.
        destruct x as [k v]. apply elem_of_map_to_list in Hx. by eexists. }
    destruct (known_keys_cases po c) as [[-> Hall]|[-> (k & [v Hv] & Hk2)]].
    2:{ exfalso. apply Hk2, (Hl (k, v)). by rewrite Hitems, elem_of_map_to_list. }
    rewrite E. cbn [mbind res_bind]. eexists. split; [reflexivity|].
    set (chs := omap (λ pc : Z * (option bool * option bool), b ← pc.2.2; Some (pc.1, b)) (items c)).
    assert (Hin : ∀ k b, (k, b) ∈ chs ↔ ∃ old, (k, (old, Some b)) ∈ items c).
    { intros k b. unfold chs. rewrite elem_of_list_omap. split.
      - intros ([k' [o n]] & Hx & Hb). cbn in Hb. destruct n as [n|]; [|done]. cbn in Hb. injection Hb as -> ->. by eauto.
      - intros [old Ho]. exists (k, (old, Some b)). done. }
    assert (HF : Forall2 (λ line kb, lacks nl10 line ∧ header_says po vstr line kb) (mjoin r) chs).
    { unfold chs. clear -Hr Hpo. induction Hr as [|x ls l r Hx Hr IH]; [constructor|]. unfold header_line in Hx.
      destruct (pretty x.1) as [t|] eqn:Et; [|done]. cbn [mbind res_bind] in Hx. injection Hx as <-.
      destruct x as [k [o n]]. cbn in *. destruct n as [b|]; [|done]. cbn. constructor; [|done].
      destruct (pretty_words po vstr Hpo _ _ Et) as (Hlk & ws & Hn & Hw). change (match b with true => "True" | false => "False" end) with (py_value (Some b)).
      rewrite value_word. pose proof (value_solid (Some b)) as Sv. split.
      - rewrite !lacks_app. repeat split; try (by apply solid_lacks); [done|]. repeat (apply lacks_cons; split; [discriminate|]); by intros ?%elem_of_nil.
      - exists ws. split; [done|]. cbn [fst snd]. rewrite Hw by (by apply (blank_start_cons " "%char)). f_equal.
        change (" : " +:+ word_of (Some b)) with (" " +:+ ":" +:+ " " +:+ word_of (Some b)). rewrite pw_sp, pw_word;
          [|by apply solid1|apply bs_sp].
        by rewrite pw_sp, pw_one. }
    exists chs. split; [|split].
    - assert (ND : NoDup (items c).*1) by (rewrite Hitems; apply NoDup_fst_map_to_list). unfold chs. clear -ND.
      induction (items c) as [|[k [o n]] l IH]; [constructor|]. cbn in ND. apply NoDup_cons in ND as [Hk ND]. cbn. destruct n as [b|]; [|by apply IH].
      cbn. constructor; [|by apply IH]. rewrite elem_of_list_fmap. intros ([k' b'] & -> & Hx). apply elem_of_list_omap in Hx as ([k2 [o2 n2]] & Hx & Hb).
      cbn in Hb. destruct n2 as [n2|]; [|done]. cbn in Hb. injection Hb as -> ->. apply Hk. apply elem_of_list_fmap. eexists; split; [|exact Hx]; done.
    - intros k b. rewrite Hin. apply exist_proper. intros old. rewrite Hitems, elem_of_map_to_list. rewrite map_filter_lookup_Some. cbn. naive_solver.
    - destruct (decide (chs = [])) as [E0|E0].
      + left. split; [done|]. rewrite E0 in HF. inversion HF. done.
      + right. split; [done|]. rewrite lines_join by (intros E1; rewrite E1 in HF; inversion HF; by subst).
        assert (mjoin (text_lines <$> mjoin r) = mjoin r) as ->.
        { clear -HF. induction HF as [|x y l k [Hx _] Hl IH]; [done|]. cbn [fmap list_fmap]. change (text_lines x ++ mjoin (text_lines <$> l) = x :: l).
          rewrite IH, lines_one by done. done. }
        eapply Forall2_impl; [exact HF|]. by intros ? ? [_ ?].
  Qed.
  Lemma report_cases sugg changes :
    match log_report (name_of po) wa m sugg changes with
    | Ok (h, ls) => ∃ t, log_report_text po vstr items wa m sugg changes = Ok t ∧ report_says po vstr t h ls
    | Raise e => log_report_text po vstr items wa m sugg changes = Raise e
    end.
  Proof.
    unfold log_report, log_report_text. pose proof (decisions_cases changes (Z.abs <$> sugg) 0) as H.
    assert (Hno : match report_lines (name_of po) wa m changes 0 (Z.abs <$> sugg) with
      | Ok ls => ∃ t, (lines ← decisions_text po vstr items wa m changes 0 (Z.abs <$> sugg); Ok (str_join nl_str ([] ++ lines))) = Ok t ∧ report_says po vstr t None ls
      | Raise e => (lines ← decisions_text po vstr items wa m changes 0 (Z.abs <$> sugg); Ok (str_join nl_str ([] ++ lines))) = Raise e end).
    { destruct (report_lines _ _ _ _ _ _) as [ls|e]; [|by rewrite H]. destruct H as (ts & body & -> & HF & E & En). cbn [mbind res_bind].
      eexists. split; [reflexivity|]. exists [], body. split; [done|]. split; [done|]. cbn [app]. rewrite <-E. destruct ts as [|t ts]; [done|].
      rewrite lines_join by done. destruct (mjoin (text_lines <$> t :: ts)) eqn:E2; [|done].
      cbn in E2. destruct (lines_nonempty t) as (a & b & Hab). rewrite Hab in E2. done. }
    assert (Hn : ∀ X : res (option changelog * list log_line), (ls ← report_lines (name_of po) wa m changes 0 (Z.abs <$> sugg); Ok (@None changelog, ls)) = X → 
      match X with
      | Ok (h, ls) => ∃ t, (lines ← decisions_text po vstr items wa m changes 0 (Z.abs <$> sugg); Ok (str_join nl_str ([] ++ lines))) = Ok t ∧ report_says po vstr t h ls
      | Raise e => (lines ← decisions_text po vstr items wa m changes 0 (Z.abs <$> sugg); Ok (str_join nl_str ([] ++ lines))) = Raise e end).
    { intros X <-. by destruct (report_lines _ _ _ _ _ _). }
    destruct changes as [|c changes]; [by apply Hn|]. destruct wa eqn:Ew; [|by apply Hn]. clear Hn Hno.
    pose proof (header_cases c) as Hh. destruct (known_keys (name_of po) c) as [u|e]; cbn [mbind res_bind]; [|by rewrite Hh].
    destruct Hh as (t & -> & Hh). cbn [mbind res_bind].
    destruct (report_lines _ _ _ _ _ _) as [ls|e]; cbn [mbind res_bind]; [|by rewrite H].
    destruct H as (ts & body & -> & HF & E & En). cbn [mbind res_bind]. eexists. split; [reflexivity|].
    exists (text_lines t), body. split; [exact Hh|]. split; [done|]. change ([t] ++ ts) with (t :: ts). rewrite lines_join by done.
    change (mjoin (text_lines <$> t :: ts)) with (text_lines t ++ mjoin (text_lines <$> ts)). rewrite E. destruct (lines_nonempty t) as (a & b & ->). done.
  Qed.
  (** The histogram *)
  Lemma histogram_cases sugg :
    (∃ v, v ∈ sugg ∧ ¬ known po (Z.abs v)) ∧ histogram_text po vstr sugg = Raise ValueError ∨
    (∀ v, v ∈ sugg → known po (Z.abs v)) ∧ ∃ t lines, histogram_text po vstr sugg = Ok t ∧
      text_lines t = (match lines with [] => [""] | _ => lines end) ∧ Forall2 (count_says po vstr) lines (log_histogram sugg).
  Proof.
    assert (Hin : ∀ k, (∃ n, (k, n) ∈ log_histogram sugg) ↔ ∃ v, v ∈ sugg ∧ k = Z.abs v).
    { intros k. unfold log_histogram, most_common, counter. setoid_rewrite elem_of_sort_by. setoid_rewrite elem_of_list_fmap.
      setoid_rewrite fromkeys_elem. setoid_rewrite elem_of_list_fmap. naive_solver. }
    unfold histogram_text.
    destruct (mapM_known po (histogram_line po vstr) fst (log_histogram sugg)) as [(Hl & r & E & Hr)|((x & Hx & Hk) & E)].
    { intros x [t Ht]%pretty_known. unfold histogram_line. rewrite Ht. cbn. by eauto. }
    { intros x Hx%pretty_unknown. unfold histogram_line. by rewrite Hx. }
    - right. split.
      { intros v Hv. destruct (proj2 (Hin (Z.abs v))) as [n Hn]; [by eauto|]. by apply (Hl (Z.abs v, n)). }
      rewrite E. cbn [mbind res_bind]. eexists _, r. split; [reflexivity|].
      assert (HF : Forall2 (λ line kn, lacks nl10 line ∧ count_says po vstr line kn) r (log_histogram sugg)).
      { clear -Hr Hpo. induction Hr as [|x y l r Hx Hr IH]; constructor; [|done]. unfold histogram_line in Hx.
        destruct (pretty x.1) as [t|] eqn:Et; [|done]. cbn [mbind res_bind] in Hx. injection Hx as <-.
        destruct (pretty_words po vstr Hpo _ _ Et) as (Hlk & ws & Hn & Hw). rewrite numeral_str. pose proof (numeral_solid (Z.of_nat x.2)) as Sv.
        unfold rjust. split.
        - rewrite !lacks_app. repeat split; try (by apply solid_lacks); try apply fill_lacks; [done|apply sp_lacks].
        - exists ws. split; [done|]. rewrite !s_assoc, pw_spaces. rewrite Hw by apply bs_sp. rewrite pw_sp, pw_spaces, pw_one by done. done. }
      split; [|eapply Forall2_impl; [exact HF|]; by intros ? ? [_ ?]].
      destruct r as [|x r]; [done|]. rewrite lines_join by done.
      assert (Hlk : Forall (lacks nl10) (x :: r)) by (clear -HF; induction HF as [|? ? ? ? [? _]]; by constructor).
      clear -Hlk. induction Hlk as [|a l Ha Hl IH]; [done|]. cbn [fmap list_fmap]. change (text_lines a ++ mjoin (text_lines <$> l) = a :: l).
      by rewrite IH, lines_one.
    - left. rewrite E. split; [|done]. destruct x as [k n]. destruct (proj1 (Hin k)) as (v & Hv & ->); [by eauto|]. by exists v.
  Qed.
End whole.
