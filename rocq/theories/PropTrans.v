(** * Properties C27, C28, C30, C50: transactions. *)
From Verif Require Import PoolProofs PropPool PropConstraints ConstraintProofs SatLearn PropRules TopoProofs ReachProofs PrettyProofs.

(** Transaction(pool, decisions, installed_package_ids): decisions are ids of packages of the pool
    (selected) and their negations (rejected), without contradiction. *)
Definition has_id (po : pool) (X : list Z) (p : package) : Prop := ∃ i, package_id po p = Ok i ∧ i ∈ X.
Definition has_neg_id (po : pool) (X : list Z) (p : package) : Prop := ∃ i, package_id po p = Ok i ∧ - i ∈ X.
Definition good_decisions (po : pool) (pkgs : list package) (dec : list Z) : Prop :=
  (∀ x, x ∈ dec → ∃ p i, p ∈ pkgs ∧ package_id po p = Ok i ∧ (x = i ∨ x = - i)) ∧ (∀ x, x ∈ dec → - x ∉ dec).
Definition good_ids (po : pool) (pkgs : list package) (ids : list Z) : Prop :=
  ∀ x, x ∈ ids → ∃ p, p ∈ pkgs ∧ package_id po p = Ok x.
Definition same_release (p q : package) : Prop := p_name p = p_name q ∧ p_version p = p_version q.
(** The installed package the transaction keeps in place of [q]: the one with the same name and
    version (the last one, should several be installed). *)
Definition kept_for (po : pool) (pkgs : list package) (inst : list Z) (p q : package) : Prop :=
  same_release p q ∧ ∃ i i1 i2, package_id po p = Ok i ∧ inst = i1 ++ i :: i2 ∧
    ∀ p', p' ∈ pkgs → has_id po i2 p' → ¬ same_release p' q.

Section use.
  Context repos m po (Hpo : pool_of repos m = Ok po) (Hinj : well_formed (mjoin repos)).
  Local Notation l := (mjoin repos).
  Lemma tr_rep : pool_rep po l ∧ sem_mods po = default no_mods m.
  Proof. destruct (pool_of_rep _ _ _ Hpo) as [R Hm]. split; [done|]. unfold sem_mods. by rewrite Hm. Qed.
  Lemma has_id_pid X p : p ∈ l → has_id po X p ↔ pid po p ∈ X.
  Proof.
    intros Hp. destruct tr_rep as [R _]. unfold has_id. rewrite (pid_ok po l R p Hp).
    split; [by intros (i & [= <-] & ?)|eauto].
  Qed.
  Lemma has_neg_pid X p : p ∈ l → has_neg_id po X p ↔ - pid po p ∈ X.
  Proof.
    intros Hp. destruct tr_rep as [R _]. unfold has_neg_id. rewrite (pid_ok po l R p Hp).
    split; [by intros (i & [= <-] & ?)|eauto].
  Qed.
  Context (dec inst : list Z) (Hd : good_decisions po l dec) (Hi : good_ids po l inst).
  Lemma dec_pid x : x ∈ dec → ∃ p, p ∈ l ∧ (x = pid po p ∨ x = - pid po p).
  Proof.
    intros Hx. destruct tr_rep as [R _]. destruct (proj1 Hd x Hx) as (p & i & Hp & E & H).
    rewrite (pid_ok po l R p Hp) in E. injection E as <-. eauto.
  Qed.
  Lemma inst_pid x : x ∈ inst → ∃ p, p ∈ l ∧ x = pid po p.
  Proof.
    intros Hx. destruct tr_rep as [R _]. destruct (Hi x Hx) as (p & Hp & E). rewrite (pid_ok po l R p Hp) in E. injection E as <-. eauto.
  Qed.
  Lemma kept_stands p q : p ∈ l → kept_for po l inst p q ↔ stands_for po l inst p q.
  Proof.
    intros Hp. destruct tr_rep as [R _]. unfold kept_for, stands_for, twin, same_release. rewrite (pid_ok po l R p Hp). split.
    - intros (Ht & i & i1 & i2 & [= <-] & E & H). split; [done|]. exists i1, i2. split; [done|]. intros p' Hp' Hin. apply H; [done|].
      by apply has_id_pid.
    - intros (Ht & i1 & i2 & E & H). split; [done|]. exists (pid po p), i1, i2. split; [done|]. split; [done|].
      intros p' Hp' Hin. apply H; [done|]. by apply has_id_pid.
  Qed.
  Lemma trans_open t : mk_transaction po dec inst = Ok t →
    ∃ rem ins, ops_ok po l dec inst (t_ops t) rem ins ∧ pretty_operations po (t_ops t) = Ok (t_pretty t).
  Proof.
    intros H. destruct tr_rep as [R _]. unfold mk_transaction in H. apply mbind_ok in H as (ops & Hops & H).
    apply mbind_ok in H as (pr & Hpr & [= <-]). cbn [t_ops t_pretty].
    destruct (safe_ops_spec po l R Hinj dec dec_pid (proj2 Hd) inst inst_pid ops Hops) as (rem & ins & Hok). eauto.
  Qed.
End use.

(** ** C27 *)
Theorem C27_operations : ∀ repos m po dec inst t, pool_of repos m = Ok po → well_formed (mjoin repos) →
  good_decisions po (mjoin repos) dec → good_ids po (mjoin repos) inst →
  mk_transaction po dec inst = Ok t →
  ∃ rem ins, t_ops t = (RemoveOp <$> rem) ++ (InstallOp <$> ins) ∧ NoDup rem ∧ NoDup ins ∧
    (∀ p, p ∈ ins ↔ p ∈ mjoin repos ∧ has_id po dec p ∧ ¬ has_id po inst p ∧
       ∀ q, q ∈ mjoin repos → has_id po inst q → ¬ same_release q p) ∧
    (∀ p, p ∈ rem ↔ p ∈ mjoin repos ∧ has_id po inst p ∧ has_neg_id po dec p ∧
       ∀ q, q ∈ mjoin repos → has_id po dec q → ¬ has_id po inst q → ¬ kept_for po (mjoin repos) inst p q).
Proof.
  intros repos m po dec inst t Hpo Hinj Hd Hi Ht.
  destruct (trans_open repos m po Hpo Hinj dec inst Hd Hi t Ht) as (rem & ins & [E1 E2 E3 E4 E5 _ _] & _).
  exists rem, ins. split; [done|]. split; [done|]. split; [done|]. split.
  - intros p. rewrite E5. unfold to_install, decided_for, installed, fresh, twin, same_release. split.
    + intros ([Hp Hd'] & Hn & Hf). rewrite !(has_id_pid repos m po Hpo) by done. split; [done|]. split; [done|].
      split; [tauto|]. intros q Hq Hqi. apply Hf; [done|]. by apply (has_id_pid repos m po Hpo).
    + intros (Hp & Hd' & Hn & Hf). rewrite !(has_id_pid repos m po Hpo) in * by done. split; [done|]. split; [tauto|].
      intros q Hq Hqi. apply Hf; [done|]. by apply (has_id_pid repos m po Hpo).
  - intros p. rewrite E4. unfold to_remove, decided_for, decided_against, installed. split.
    + intros ([Hp Hpi] & [_ Hd'] & Hn). rewrite (has_id_pid repos m po Hpo), (has_neg_pid repos m po Hpo) by done.
      split; [done|]. split; [done|]. split; [done|]. intros q Hq Hqd Hqi Hk.
      rewrite !(has_id_pid repos m po Hpo) in * by done. apply Hn. exists q. split; [done|]. split; [tauto|].
      by apply (kept_stands repos m po Hpo).
    + intros (Hp & Hpi & Hd' & Hn). rewrite (has_id_pid repos m po Hpo), (has_neg_pid repos m po Hpo) in * by done.
      split; [done|]. split; [done|]. intros (q & [Hq Hqd] & Hqi & Hk). apply (Hn q Hq).
      * by apply (has_id_pid repos m po Hpo).
      * rewrite (has_id_pid repos m po Hpo) by done. tauto.
      * by apply (kept_stands repos m po Hpo).
Qed.

(** ** C28 *)
(** [bef ops a b]: operation [a] comes before operation [b] (each occurs once, C27). *)
Theorem C28_order : ∀ repos m po dec inst t p q d, pool_of repos m = Ok po → well_formed (mjoin repos) →
  good_decisions po (mjoin repos) dec → good_ids po (mjoin repos) inst →
  mk_transaction po dec inst = Ok t → q ≠ p → d ∈ p_requires p → dep_meets (default no_mods m) d q →
  (InstallOp p ∈ t_ops t → InstallOp q ∈ t_ops t → bef (t_ops t) (InstallOp q) (InstallOp p)) ∧
  (RemoveOp p ∈ t_ops t → RemoveOp q ∈ t_ops t → bef (t_ops t) (RemoveOp p) (RemoveOp q)) ∧
  (∀ r s, RemoveOp r ∈ t_ops t → InstallOp s ∈ t_ops t → bef (t_ops t) (RemoveOp r) (InstallOp s)).
Proof.
  intros repos m po dec inst t p q d Hpo Hinj Hd Hi Ht Hne Hdp Hm.
  destruct (trans_open repos m po Hpo Hinj dec inst Hd Hi t Ht) as (rem & ins & [E1 _ _ _ _ E6 E7] & _).
  destruct (tr_rep repos m po Hpo) as [R Hms]. rewrite Hms in E6, E7.
  assert (Hri : ∀ x, InstallOp x ∈ t_ops t → x ∈ ins).
  { intros x. rewrite E1, elem_of_app, !elem_of_list_fmap. intros [(y & [=] & _)|(y & [= ->] & ?)]. done. }
  assert (Hrr : ∀ x, RemoveOp x ∈ t_ops t → x ∈ rem).
  { intros x. rewrite E1, elem_of_app, !elem_of_list_fmap. intros [(y & [= ->] & ?)|(y & [=] & _)]. done. }
  split; [|split].
  - intros Hp%Hri Hq%Hri. rewrite E1. apply bef_app_r, bef_fmap. by eapply E6.
  - intros Hp%Hrr Hq%Hrr. rewrite E1. apply bef_app_l, bef_fmap. by eapply E7.
  - intros r s Hr%Hrr Hs%Hri. rewrite E1. apply bef_app; apply elem_of_list_fmap; eauto.
Qed.

(** ** C50 *)
(** If only packages of the same name provide the name of a package, and at most one version of each
    name is removed and installed, the pretty operations pair removal and installation of the same
    name and list everything else as it is. *)
Theorem C50_pretty : ∀ repos m po dec inst t, pool_of repos m = Ok po → well_formed (mjoin repos) →
  good_decisions po (mjoin repos) dec → good_ids po (mjoin repos) inst →
  mk_transaction po dec inst = Ok t →
  (∀ p q, p ∈ mjoin repos → q ∈ mjoin repos → provides q (p_name p) → p_name q = p_name p) →
  (∀ p q, RemoveOp p ∈ t_ops t → RemoveOp q ∈ t_ops t → p_name p = p_name q → p = q) →
  (∀ p q, InstallOp p ∈ t_ops t → InstallOp q ∈ t_ops t → p_name p = p_name q → p = q) →
  NoDup (op_package <$> t_pretty t) ∧
  (∀ p, InstallOp p ∈ t_pretty t ↔ InstallOp p ∈ t_ops t ∧ ∀ q, RemoveOp q ∈ t_ops t → p_name q ≠ p_name p) ∧
  (∀ p, RemoveOp p ∈ t_pretty t ↔ RemoveOp p ∈ t_ops t ∧ ∀ q, InstallOp q ∈ t_ops t → p_name q ≠ p_name p) ∧
  (∀ p q, UpdateOp p q ∈ t_pretty t ↔ InstallOp p ∈ t_ops t ∧ RemoveOp q ∈ t_ops t ∧ p_name q = p_name p).
Proof.
  intros repos m po dec inst t Hpo Hinj Hd Hi Ht Hprov Hur Hui.
  destruct (trans_open repos m po Hpo Hinj dec inst Hd Hi t Ht) as (rem & ins & [E1 E2 E3 E4 E5 _ _] & Hpr).
  destruct (tr_rep repos m po Hpo) as [R _].
  assert (Hri : ∀ x, InstallOp x ∈ t_ops t ↔ x ∈ ins).
  { intros x. rewrite E1, elem_of_app, !elem_of_list_fmap. split; [|eauto]. intros [(y & [=] & _)|(y & [= ->] & ?)]. done. }
  assert (Hrr : ∀ x, RemoveOp x ∈ t_ops t ↔ x ∈ rem).
  { intros x. rewrite E1, elem_of_app, !elem_of_list_fmap. split; [|eauto]. intros [(y & [= ->] & ?)|(y & [=] & _)]. done. }
  destruct (pretty_spec po (mjoin repos) R Hinj Hprov rem ins) as (pretty & Hp & H1 & H2 & H3 & H4).
  - intros p. rewrite elem_of_app, E4, E5. unfold to_remove, installed, to_install, decided_for. tauto.
  - apply NoDup_app. split; [done|]. split; [|done]. intros p. rewrite E4, E5. unfold to_remove, to_install. tauto.
  - intros p q Hp Hq. by apply Hur; apply Hrr.
  - intros p q Hp Hq. by apply Hui; apply Hri.
  - rewrite E1, Hp in Hpr. injection Hpr as <-. split; [done|]. split; [|split].
    + intros p. rewrite H2, Hri. by setoid_rewrite Hrr.
    + intros p. rewrite H3, Hrr. by setoid_rewrite Hri.
    + intros p q. by rewrite H4, Hri, Hrr.
Qed.

(** Without the assumption on provided names they can be wrong: two packages are installed, none is
    removed, but one of them "updates" the other. *)
Definition c50_pkgs : list package :=
  [Pkg "X" (V 1 0) [] [] [] None; Pkg "Y" (V 1 0) [] [] [("X", [])] None; Pkg "Z" (V 1 0) [] [] [("X", [])] None].
Theorem C50_virtual_refuted : ∃ po t, pool_of [c50_pkgs] None = Ok po ∧
  mk_transaction po [1; 2] [] = Ok t ∧
  t_ops t = [InstallOp (Pkg "X" (V 1 0) [] [] [] None); InstallOp (Pkg "Y" (V 1 0) [] [] [("X", [])] None)] ∧
  t_pretty t = [UpdateOp (Pkg "X" (V 1 0) [] [] [] None) (Pkg "Y" (V 1 0) [] [] [("X", [])] None)].
Proof. do 2 eexists. split; [vm_compute; reflexivity|]. split; [vm_compute; reflexivity|]. done. Qed.
(** With three of them not even a transaction is made. *)
Theorem C50_virtual_fails_refuted : ∃ po, pool_of [c50_pkgs] None = Ok po ∧
  mk_transaction po [1; 2; 3] [] = Raise ValueError.
Proof. eexists. split; [vm_compute; reflexivity|]. vm_compute. done. Qed.

(** ** Non-vacuity *)
Definition ex_tr : list package :=
  [Pkg "A" (V 1 0) [("B", [])] [] [] (Some "i"); Pkg "B" (V 1 0) [] [] [] (Some "i");
   Pkg "A" (V 2 0) [("C", [])] [] [] (Some "r"); Pkg "C" (V 1 0) [("D", [])] [] [] (Some "r"); Pkg "D" (V 1 0) [] [] [] (Some "i");
   Pkg "D" (V 1 0) [] [] [] (Some "r"); Pkg "E" (V 1 0) [] [] [] (Some "r")].
Example ex_transaction : ∃ po t, pool_of [ex_tr] None = Ok po ∧ well_formed (mjoin [ex_tr]) ∧
  good_decisions po (mjoin [ex_tr]) [-1; -2; 3; 4; -5; 6; 7] ∧ good_ids po (mjoin [ex_tr]) [1; 2; 5] ∧
  mk_transaction po [-1; -2; 3; 4; -5; 6; 7] [1; 2; 5] = Ok t ∧
  (∀ p q, p ∈ mjoin [ex_tr] → q ∈ mjoin [ex_tr] → provides q (p_name p) → p_name q = p_name p) ∧
  ((λ o, (p_name (op_package o), match o with InstallOp _ => true | _ => false end)) <$> t_ops t
     = [("A", false); ("B", false); ("E", true); ("C", true); ("A", true)]) ∧
  ((λ o, (p_name (op_package o), match o with UpdateOp _ _ => true | _ => false end)) <$> t_pretty t
     = [("B", false); ("E", false); ("C", false); ("A", true)]).
Proof.
  do 2 eexists. split; [vm_compute; reflexivity|]. split; [by apply well_formed_check|].
  split; [split|].
  - intros x Hx. rewrite !elem_of_cons, elem_of_nil in Hx.
    exists (nth (Z.to_nat (Z.abs x) - 1) (mjoin [ex_tr]) (Pkg "" (V 0 0) [] [] [] None)), (Z.abs x).
    destruct Hx as [->|[->|[->|[->|[->|[->|[->|[]]]]]]]]; (split; [cbn; set_solver|]; split; [vm_compute; reflexivity|]; lia).
  - intros x Hx Hx'. rewrite !elem_of_cons, elem_of_nil in Hx, Hx'. lia.
  - split; [|split; [vm_compute; reflexivity|split; [|vm_compute; split; reflexivity]]].
    + intros x Hx. rewrite !elem_of_cons, elem_of_nil in Hx.
      exists (nth (Z.to_nat (Z.abs x) - 1) (mjoin [ex_tr]) (Pkg "" (V 0 0) [] [] [] None)).
      destruct Hx as [->|[->|[->|[]]]]; (split; [cbn; set_solver|vm_compute; reflexivity]).
    + intros p q Hp Hq [E|(d & Hd & _)]; [done|]. exfalso. unfold ex_tr in Hq. cbn [mjoin list_join app] in Hq.
      rewrite !elem_of_cons, elem_of_nil in Hq.
      destruct Hq as [->|[->|[->|[->|[->|[->|[->|[]]]]]]]]; by apply elem_of_nil in Hd.
Qed.

Print Assumptions C27_operations.
Print Assumptions C28_order.
Print Assumptions C50_pretty.
Print Assumptions C50_virtual_refuted.
Print Assumptions C50_virtual_fails_refuted.
