(** * Totality of [solve]. *)
From Verif Require Import PoolProofs PropPool PropConstraints SpecSat ConstraintProofs PropRules SatLearn RepositoryProofs PrettyProofs.
From Verif Require Export PropSolve.

(** ** More fuel does not change the rules. *)
Definition grows {A} (r r' : res A) : Prop := ∀ a, r = Ok a → r' = Ok a.
Lemma grows_refl {A} (r : res A) : grows r r.
Proof. by intros a. Qed.
Local Hint Resolve grows_refl : core.
Lemma grows_bind {A B} (r r' : res A) (f f' : A → res B) : grows r r' → (∀ a, grows (f a) (f' a)) → grows (r ≫= f) (r' ≫= f').
Proof. intros Hr Hf b (a & Ha & Hb)%mbind_ok. rewrite (Hr a Ha). cbn [mbind res_bind]. by apply Hf. Qed.
Lemma grows_foldM {A B} (f f' : B → A → res B) xs : (∀ b x, grows (f b x) (f' b x)) → ∀ b, grows (foldM f xs b) (foldM f' xs b).
Proof. intros Hf. induction xs as [|x xs IH]; intros b; [apply grows_refl|]. cbn [foldM]. apply grows_bind; [apply Hf|done]. Qed.

Lemma loop_grows po strict : ∀ n n', (n ≤ n')%nat → ∀ queue st, grows (package_rules_loop po strict n queue st) (package_rules_loop po strict n' queue st).
  Proof.
    induction n as [|n IH]; intros n' Hn queue st.
    - destruct queue as [|[p r] queue]; [by destruct n'|done].
    - destruct n' as [|n']; [lia|]. destruct queue as [|[p r] queue]; [done|]. cbn [package_rules_loop].
      apply grows_bind; [done|]. intros i. destruct (decide _); [apply IH; lia|].
      apply grows_bind; [done|]. intros [st' more]. apply grows_bind; [done|]. intros st''. apply IH. lia.
  Qed.
Section fuel.
  Context (po : pool) (inst : list (Z * package)) (strict : bool) (n n' : nat) (Hn : (n ≤ n')%nat).
  Lemma package_rules_grows p r st : grows (package_rules po strict n p r st) (package_rules po strict n' p r st).
  Proof. by apply loop_grows. Qed.
  Lemma job_rules_grows j st : grows (job_rules po inst strict n j st) (job_rules po inst strict n' j st).
  Proof.
    assert (Hi : ∀ r, grows (install_job_rules po inst strict n r st) (install_job_rules po inst strict n' r st)).
    { intros r. unfold install_job_rules. apply grows_bind; [done|]. intros [|p ps]; [done|].
      apply grows_bind; [|done]. apply grows_foldM. intros b x. apply grows_bind; [done|]. intros i. destruct (decide _); [done|apply package_rules_grows]. }
    unfold job_rules. destruct (j_kind j), (j_req j) as [r|]; try apply Hi; try done.
    unfold update_job_rules. apply grows_bind; [done|]. intros [|p ps]; [done|]. cbv zeta.
    apply grows_bind; [apply package_rules_grows|done].
  Qed.
  Lemma iter_rules_grows jobs : grows (iter_rules po inst strict n jobs) (iter_rules po inst strict n' jobs).
  Proof.
    unfold iter_rules. apply grows_bind.
    - apply grows_foldM. intros b x. apply job_rules_grows.
    - intros st. apply grows_foldM. intros b x. apply grows_bind; [|intros; apply package_rules_grows].
      unfold installed_package_rules. apply grows_foldM. intros; apply package_rules_grows.
  Qed.
End fuel.

(** ** The jobs *)
Section total.
  Context (e : env) (He : env_ok e).
  Context (po : pool) (l : list package) (R : pool_rep po l) (Hinj : well_formed l).
  Context (inst : list package) (Hinst : ∀ p, p ∈ inst → p ∈ l).
  Local Notation pid := (pid po).

  Lemma job_ids_total j acc : has_candidate l j → ∃ acc', job_ids po inst acc j = Ok acc'.
  Proof.
    intros (Hk & r & Er & p & Hp & Hm). unfold job_ids. rewrite Er.
    assert (Hin : p ∈ wp po r false) by (by apply (jcand_spec _ _ R)).
    assert (Hall : ∀ q, q ∈ wp po r false → q ∈ l) by (intros q Hq; by apply (jcand_spec _ _ R) in Hq as [? _]).
    rewrite (jcand_ok _ _ R). cbn [mbind res_bind].
    destruct (wp po r false) as [|q rest] eqn:Ew; [by apply elem_of_nil in Hin|].
    assert (Hmax : max_first (installed_lt inst) q rest ∈ q :: rest) by apply max_first_elem.
    destruct (j_kind j); try done; cbv zeta.
    all: try rewrite (decide_True (P := JHardUpdate = JHardUpdate)) by done.
    all: rewrite ?(decide_False (P := _ = JHardUpdate)) by done.
    all: rewrite (pids_ok po l R); [cbn [mbind res_bind]; eauto|].
    all: try (intros x Hx; by apply Hall).
    intros x ->%elem_of_list_singleton. by apply Hall.
  Qed.
  Lemma jobs_ids_total jobs : (∀ j, j ∈ jobs → has_candidate l j) → ∃ acc, foldM (job_ids po inst) jobs ([], []) = Ok acc.
  Proof.
    intros Hj. destruct (foldM_total_inv (λ _, True) (job_ids po inst) jobs ([], []) I) as (acc & E & _); [|eauto].
    intros b x _ Hx. destruct (job_ids_total x b (Hj x Hx)) as (b' & E). eauto.
  Qed.
End total.

(** One package depends on another one. *)
Definition depends (pkgs : list package) (m : modifiers) (p q : package) : Prop :=
  p ∈ pkgs ∧ q ∈ pkgs ∧ q ≠ p ∧ ∃ d, d ∈ p_requires p ∧ dep_meets m d q.
Definition acyclic (pkgs : list package) (m : modifiers) : Prop := ∀ p, ¬ tc (depends pkgs m) p p.

Section dec.
  Context (po : pool) (l : list package) (R : pool_rep po l) (Hinj : well_formed l).
  Context (dec : list Z) (Hdec : ∀ x, x ∈ dec → ∃ p, p ∈ l ∧ (x = pid po p ∨ x = - pid po p)) (Hcons : ∀ x, x ∈ dec → - x ∉ dec).
  Context (Hplain : ∀ p d, p ∈ l → d ∈ p_requires p → plain_cdep d).
  Lemma dec_cycle a b : tc (λ a b, dec_edge po l dec a b ∧ a ≠ b) a b →
    ∃ p q, lit_pkg po l a p ∧ lit_pkg po l b q ∧ tc (depends l (sem_mods po)) p q.
  Proof.
    assert (Hstep : ∀ a b, dec_edge po l dec a b ∧ a ≠ b → ∃ p q, lit_pkg po l a p ∧ lit_pkg po l b q ∧ depends l (sem_mods po) p q).
    { intros x y [(Hx & Hy & p & q & d & Hp & Hq & Hd & Hc) Hne]. exists p, q. split; [done|]. split; [done|].
      split; [apply Hp|]. split; [apply Hq|]. split.
      - intros ->. destruct Hp as [_ Ex], Hq as [_ Ey]. assert (y = - x) as -> by lia. by apply (Hcons x).
      - exists d. split; [done|]. apply (dcand_spec po l R d q); [apply (Hplain p d); [apply Hp|done]|done]. }
    induction 1 as [x y Hxy|x y z Hxy _ (p' & q & Hp' & Hq & Htc)].
    - destruct (Hstep x y Hxy) as (p & q & Hp & Hq & Hd). exists p, q. split; [done|]. split; [done|]. by apply tc_once.
    - destruct (Hstep x y Hxy) as (p & q' & Hp & Hq' & Hd). exists p, q. split; [done|]. split; [done|].
      eapply tc_l; [exact Hd|]. by rewrite (lit_pkg_fun po l R Hinj _ _ _ Hq' Hp').
  Qed.
End dec.

Section main.
  Context (e : env) (He : env_ok e).
  Context (po : pool) (l : list package) (R : pool_rep po l) (Hinj : well_formed l).
  Context (inst : list package) (Hinst : ∀ p, p ∈ inst → p ∈ l).
  Context (strict : bool) (fuel : nat) (jobs : list job) (ids : list Z) (rules : list rule) (uenv : uc_env) (ust : uc_state)
    (iids : list (Z * package)) (st : gst) (PB : problem e po l inst strict fuel jobs ids rules uenv ust iids st).
  Context (a : aset) (sol : list Z) (SO : solved po l st a sol).
  Context (H1 : single_names l) (H2 : removes_known l inst jobs) (Hone : one_version (λ p, p ∈ inst)).
  Context (Hplain : ∀ p d, p ∈ l → d ∈ p_requires p → plain_cdep d).
  Context (Hfuel : (length l < fuel)%nat).
  (** Without assuming that the dependencies are acyclic: only ValueError is possible besides a transaction. *)
  Lemma transaction_or : ∃ X, connected_packages e po fuel sol (inst_set po inst ∪ list_to_set ids) = Ok X ∧
    ((∃ t, mk_transaction po (e_ord e 2 X) (ilist e po inst) = Ok t) ∨
     (mk_transaction po (e_ord e 2 X) (ilist e po inst) = Raise ValueError ∧ ¬ acyclic l (sem_mods po))).
  Proof.
    assert (Hsol := sol_lit po l _ _ _ SO).
    assert (Hroots := roots_ok e po l R Hinj inst Hinst _ _ _ _ _ _ _ _ _ PB).
    destruct (name_to_id_spec po l R Hinj sol Hsol) as (n2i & En & Hn1 & Hn2).
    destruct (root_names_spec po l R Hinj (e_ord e 0 (inst_set po inst ∪ list_to_set ids))) as (N & EN & HN0).
    { intros i Hi. apply (e_ord_elem e He) in Hi. by apply Hroots. }
    assert (HN : ∀ nm, nm ∈ N ↔ ∃ p, p ∈ l ∧ pid po p ∈ inst_set po inst ∪ list_to_set ids ∧ provides p nm).
    { intros nm. rewrite HN0. f_equiv. intros p. by rewrite (e_ord_elem e He). }
    assert (Hcl := pulled_closed e po l R Hinj inst Hinst _ _ _ _ _ _ _ _ _ PB _ _ SO H1 H2 n2i N HN Hn1 Hn2).
    assert (HpE := pulled_E e po l R Hinj inst Hinst _ _ _ _ _ _ _ _ _ PB _ _ SO H1 H2 n2i N HN Hn1).
    destruct (connected_total e He po l R Hinj sol Hsol _ Hroots fuel n2i N (list_to_set (pid po <$> l))) as [X HX]; [done|done| | | |].
    { eapply Nat.le_lt_trans; [|exact Hfuel]. rewrite <-(fmap_length (pid po) l). clear. induction (pid po <$> l) as [|x xs IH]; [done|].
      cbn. rewrite size_union_alt, size_singleton. etrans; [|apply le_n_S, IH]. cbn. apply le_n_S, subseteq_size. set_solver. }
    { intros i Hi. destruct (HpE i Hi) as (p & Hp & -> & _). apply elem_of_list_to_set, elem_of_list_fmap. eauto. }
    { intros p d Hp Hpl Hd. destruct (Hcl p d Hp Hpl Hd) as (q & _ & E' & _). eauto. }
    exists X. split; [exact HX|].
    assert (D := decided_pruned e He po l R Hinj inst Hinst _ _ _ _ _ _ _ _ _ PB _ _ SO X HX).
    assert (Hcons : ∀ x, x ∈ e_ord e 2 X → - x ∉ e_ord e 2 X).
    { intros x Hx Hnx. destruct (dc_lits _ _ _ _ _ _ D x Hx) as (p & Hp & [-> | ->]).
      - assert (A1 := dc_pos _ _ _ _ _ _ D p Hp Hx). assert (A2 := dc_neg _ _ _ _ _ _ D p Hp Hnx). congruence.
      - rewrite Z.opp_involutive in Hnx. assert (A1 := dc_pos _ _ _ _ _ _ D p Hp Hnx). assert (A2 := dc_neg _ _ _ _ _ _ D p Hp Hx). congruence. }
    assert (Hpld : ∀ x p, x ∈ e_ord e 2 X → lit_pkg po l x p → plain_deps p).
    { intros x p Hx Hp d Hd. apply (Hplain p d); [apply Hp|done]. }
    assert (Hsafe : (∀ x, ¬ tc (λ a b, dec_edge po l (e_ord e 2 X) a b ∧ a ≠ b) x x) →
      ∃ ops rem ins, safe_operations po (e_ord e 2 X) (ilist e po inst) = Ok ops ∧ ops_ok po l (e_ord e 2 X) (ilist e po inst) ops rem ins)
      by exact (safe_ops_total po l R Hinj (e_ord e 2 X) (dc_lits _ _ _ _ _ _ D) Hcons (ilist e po inst) (ilist_ok e He po l inst Hinst) Hpld).
    assert (Hcyc : (∃ x, tc (λ a b, dec_edge po l (e_ord e 2 X) a b ∧ a ≠ b) x x) → safe_operations po (e_ord e 2 X) (ilist e po inst) = Raise ValueError)
      by exact (safe_ops_cyclic po l R Hinj (e_ord e 2 X) (dc_lits _ _ _ _ _ _ D) Hcons (ilist e po inst) (ilist_ok e He po l inst Hinst) Hpld).
    assert ((safe_operations po (e_ord e 2 X) (ilist e po inst) = Raise ValueError ∧ ¬ acyclic l (sem_mods po)) ∨
      ∃ ops rem ins, safe_operations po (e_ord e 2 X) (ilist e po inst) = Ok ops ∧ ops_ok po l (e_ord e 2 X) (ilist e po inst) ops rem ins)
      as [[Hv Hna]|(ops & rem & ins & Hops & OK)].
    { destruct (safe_operations po (e_ord e 2 X) (ilist e po inst)) as [ops|x] eqn:Es.
      - right. apply Hsafe. intros x Hx. discriminate Hcyc. eauto.
      - destruct (decide (x = ValueError)) as [->|Hx]; [left; split; [done|]|].
        + intros Hac. destruct Hsafe as (? & ? & ? & ? & _); [|done].
          intros x Hx. destruct (dec_cycle po l R Hinj _ Hcons Hplain x x Hx) as (p & q & Hp & Hq & Ht).
          rewrite (lit_pkg_fun po l R Hinj _ _ _ Hp Hq) in Ht. by apply (Hac q).
        + exfalso. apply Hx. destruct Hsafe as (? & ? & ? & ? & _); [|done]. intros y Hy. apply Hx.
          assert (Raise x = Raise (A := list operation) ValueError) as [=] by (apply Hcyc; eauto). done. }
    { right. split; [|done]. unfold mk_transaction. by rewrite Hv. }
    left.
    assert (Hrem : ∀ p, p ∈ rem → p ∈ inst).
    { intros p Hp. apply (rem_iff e po l inst _ _ _ _ OK) in Hp.
      by apply (removed_val e He po l R Hinj inst Hinst _ _ _ D _ _ _ OK) in Hp as [? _]. }
    assert (Hins : ∀ p, p ∈ ins → p ∈ l ∧ p ∉ inst ∧ E po l inst st a p).
    { intros p Hp. assert (Hp' := Hp). apply (ins_iff e po l inst _ _ _ _ OK) in Hp'.
      destruct (install_val e He po l R Hinj inst Hinst _ _ _ D _ _ _ OK p Hp') as (Hpl & Hni & _). split; [done|]. split; [done|].
      apply (ok_ins _ _ _ _ _ _ _ OK) in Hp as ([_ Hd] & _).
      assert (Hpul := connected_spec e He po l R Hinj sol Hsol _ Hroots fuel X HX).
      destruct Hpul as (n2i' & N' & En' & HN' & _ & _ & _ & HX'). rewrite En in En'. injection En' as <-.
      assert (HNN : ∀ x, x ∈ N' ↔ x ∈ N) by (intros x; by rewrite HN', HN).
      assert (N' = N) as -> by (apply leibniz_equiv; intros x; apply HNN).
      assert (Hpu : pulled po l n2i N (pid po p)).
      { apply (dec_pulled e po l R Hinj inst Hinst _ _ _ _ _ _ _ _ _ PB _ _ SO (e_ord e 2 X) H1 H2 n2i N HN Hn1 Hn2); [|done|done].
        intros i. by rewrite (e_ord_elem e He). }
      destruct (HpE _ Hpu) as (q & Hq & Eq & HE & _). by apply (pid_inj po l R Hinj) in Eq as ->. }
    destruct (pretty_spec po l R Hinj) with (rem := rem) (ins := ins) as (pretty & Hpretty & _).
    - intros p q Hp Hq Hpr. apply (H1 q p (p_name p)); [done|done|done|by left].
    - intros p [Hp|Hp]%elem_of_app; [by apply Hinst, Hrem|by apply Hins].
    - apply NoDup_app. split; [apply (ok_rem_nodup _ _ _ _ _ _ _ OK)|]. split; [|apply (ok_ins_nodup _ _ _ _ _ _ _ OK)].
      intros p Hp Hp'. destruct (Hins p Hp') as (_ & Hni & _). by apply Hni, Hrem.
    - intros p q Hp Hq Hn'. apply (Hone p q); [by apply Hrem|by apply Hrem|done].
    - intros p q Hp Hq Hn'.
      apply (va_names _ _ _ _ _ (E_valid e po l R Hinj inst Hinst _ _ _ _ _ _ _ _ _ PB _ _ SO) p q); [by apply Hins|by apply Hins|done].
    - unfold mk_transaction. rewrite Hops. cbn [mbind res_bind]. rewrite (ok_ops _ _ _ _ _ _ _ OK), Hpretty. cbn [mbind res_bind]. eauto.
  Qed.
  Lemma transaction_total : acyclic l (sem_mods po) → ∃ X t,
    connected_packages e po fuel sol (inst_set po inst ∪ list_to_set ids) = Ok X ∧
    mk_transaction po (e_ord e 2 X) (ilist e po inst) = Ok t.
  Proof. intros Hac. destruct transaction_or as (X & HX & [(t & Ht)|[_ Hn]]); [by exists X, t|by destruct Hn]. Qed.
End main.
