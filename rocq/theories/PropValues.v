(** * Property C77: comparing and hashing requirements, packages, rules, jobs and operations. *)
From Verif Require Import Values PoolProofs.

(** ** When two objects are equal *)
Definition same_package (p q : package) : Prop :=
  p_name p = p_name q ∧ p_version p = p_version q ∧ p_requires p = p_requires q ∧ p_conflicts p = p_conflicts q ∧ p_repo p = p_repo q.
Definition same_requirement (r s : requirement) : Prop := r_name r = r_name s ∧ r_cons r = r_cons s.
Inductive same_value : value → value → Prop :=
  | sv_none : same_value VNone VNone
  | sv_con c : same_value (VCon c) (VCon c)
  | sv_multi cs : same_value (VMulti cs) (VMulti cs)
  | sv_req r s : same_requirement r s → same_value (VReq r) (VReq s)
  | sv_info n : same_value (VInfo n) (VInfo n)
  | sv_pkg p q : same_package p q → same_value (VPkg p) (VPkg q)
  | sv_rule r s : ru_lits r = ru_lits s → same_value (VRule r) (VRule s)
  | sv_upgrade : same_value (VJob (Job None JUpgrade)) (VJob (Job None JUpgrade))
  | sv_job r s k : same_requirement r s → same_value (VJob (Job (Some r) k)) (VJob (Job (Some s) k))
  | sv_install p q : same_package p q → same_value (VOp (InstallOp p)) (VOp (InstallOp q))
  | sv_remove p q : same_package p q → same_value (VOp (RemoveOp p)) (VOp (RemoveOp q))
  | sv_update p q p' q' : same_package p q → same_package p' q' → same_value (VOp (UpdateOp p p')) (VOp (UpdateOp q q')).

(** Jobs as they can be made: only an upgrade job has no requirement. *)
Definition possible (a : value) : Prop := match a with VJob j => mk_job (j_req j) (j_kind j) = Ok j | _ => True end.
Lemma possible_none k : possible (VJob (Job None k)) → k = JUpgrade.
Proof. unfold possible, mk_job. cbn. destruct (decide _); [done|]. by destruct k. Qed.

Lemma pkg_eq_same p q : pkg_eq p q = true ↔ same_package p q.
Proof. rewrite pkg_eq_true. unfold pkg_key, same_package. split; [by intros [= -> -> -> -> ->]|intros (-> & -> & -> & -> & ->); done]. Qed.
Lemma req_same r s : bool_decide (r_name r = r_name s) && bool_decide (r_cons r = r_cons s) = true ↔ same_requirement r s.
Proof. rewrite andb_true_iff, !bool_decide_eq_true. done. Qed.

Theorem C77_equal : ∀ a b, possible a → possible b → py_eq a b = Ok true ↔ same_value a b.
Proof.
  intros a b Ha Hb. split.
  - intros H.
    destruct a as [|c|cs|r|n|p|r|[ja ka]|o], b as [|d|ds|s|m|q|s|[jb kb]|o']; cbn in H; try discriminate H;
      try (by destruct (decide _)); try (by destruct o); try (by destruct o').
    + constructor.
    + injection H as H%bool_decide_eq_true. subst. constructor.
    + injection H as H%bool_decide_eq_true. subst. constructor.
    + injection H as H%req_same. by constructor.
    + injection H as H%bool_decide_eq_true. subst. constructor.
    + injection H as H%pkg_eq_same. by constructor.
    + injection H as H%bool_decide_eq_true. by constructor.
    + destruct ja as [r|], jb as [s|]; try discriminate H.
      * injection H as H. apply andb_true_iff in H as [H ->%bool_decide_eq_true]. apply req_same in H. by constructor.
      * apply possible_none in Ha as ->, Hb as ->. constructor.
    + destruct o as [p|p|p p'], o' as [q|q|q q']; cbn in H; try discriminate H; injection H as H.
      * apply pkg_eq_same in H. by constructor.
      * apply pkg_eq_same in H. by constructor.
      * apply andb_true_iff in H as [H1 H2]. apply pkg_eq_same in H1, H2. by constructor.
  - intros H. destruct H; cbn; f_equal; try (by apply bool_decide_eq_true).
    + by apply req_same.
    + by apply pkg_eq_same.
    + apply andb_true_iff. split; [by apply req_same|by apply bool_decide_eq_true].
    + by apply pkg_eq_same.
    + by apply pkg_eq_same.
    + apply andb_true_iff. split; by apply pkg_eq_same.
Qed.

(** Equality is an equivalence relation. *)
Theorem C77_equivalence :
  (∀ a, possible a → py_eq a a = Ok true) ∧
  (∀ a b, possible a → possible b → py_eq a b = Ok true → py_eq b a = Ok true) ∧
  (∀ a b c, possible a → possible b → possible c → py_eq a b = Ok true → py_eq b c = Ok true → py_eq a c = Ok true).
Proof.
  assert (Hs : ∀ a b, same_value a b → same_value b a).
  { intros a b []; constructor; unfold same_requirement, same_package in *; naive_solver. }
  split; [|split].
  - intros a Ha. apply C77_equal; [done|done|]. destruct a as [|c|cs|r|n|p|r|[[r|] k]|[p|p|p q]]; try constructor; try done.
    apply possible_none in Ha as ->. constructor.
  - intros a b Ha Hb H. apply C77_equal; [done|done|]. by apply Hs, C77_equal.
  - intros a b c Ha Hb Hc H1 H2. apply C77_equal; [done|done|]. apply C77_equal in H1, H2; try done.
    destruct H1; inversion H2; subst; constructor; unfold same_requirement, same_package in *; intuition congruence.
Qed.

(** ** When comparing fails *)
Definition named_like (a : value) (n : string) : Prop :=
  match a with VInfo m => m = n | VPkg p => p_name p = n | _ => False end.
Definition nameless (a : value) : Prop := match a with VInfo _ | VPkg _ | VReq _ => False | _ => True end.
(** Objects whose __eq__ does not know other classes. *)
Definition passes_on (a : value) : Prop := match a with VNone | VPkg _ | VJob _ | VOp _ => True | _ => False end.
Inductive fails : value → value → Prop :=
  | f_req_nameless r b : nameless b → fails (VReq r) b
  | f_req_named r b : named_like b (r_name r) → fails (VReq r) b
  | f_req_reflected r a : nameless a → passes_on a → fails a (VReq r)
  | f_pkg_req r p : p_name p = r_name r → fails (VPkg p) (VReq r)
  | f_info n b : nameless b ∨ (∃ r, b = VReq r) → fails (VInfo n) b
  | f_info_reflected n a : nameless a → passes_on a → fails a (VInfo n)
  | f_upgrade_left r k : fails (VJob (Job None JUpgrade)) (VJob (Job (Some r) k))
  | f_upgrade_right r k : fails (VJob (Job (Some r) k)) (VJob (Job None JUpgrade)).
Theorem C77_raises : ∀ a b e, possible a → possible b → py_eq a b = Raise e ↔ e = AttributeError ∧ fails a b.
Proof.
  intros a b e Ha Hb. split.
  - intros H.
    destruct a as [|c|cs|r|n|p|r|[ja ka]|o], b as [|d|ds|s|m|q|s|[jb kb]|o']; cbn in H; try discriminate H;
      try (destruct (decide _); [|discriminate H]);
      try (destruct o; cbn in H; try discriminate H); try (destruct o'; cbn in H; try discriminate H);
      try (destruct ja, jb; cbn in H; try discriminate H);
      try (apply possible_none in Ha as ->); try (apply possible_none in Hb as ->);
      (split; [congruence|]).
      all: first [ by constructor
            | apply f_pkg_req; congruence
            | apply f_req_reflected; done
            | apply f_info_reflected; done
            | apply f_info; left; done
            | apply f_info; right; eauto
            | apply f_req_named; cbn; congruence
            | apply f_req_nameless; done ].
  - intros [-> H].
    destruct H as [r b Hn|r b Hn|r a Hn Hp|r p Hn|n b Hn|n a Hn Hp|r k|r k].
    + destruct b; done.
    + destruct b; try done; cbn in Hn |- *; subst; unfold py_eq; cbn; by destruct (decide _).
    + destruct a as [| | | | | | | |[]]; done.
    + unfold py_eq. cbn. by destruct (decide _).
    + destruct Hn as [Hn|[r ->]]; [|done]. by destruct b.
    + destruct a as [| | | | | | | |[]]; done.
    + done.
    + done.
Qed.
(** Comparing two requirements, two packages, two rules, two constraints, two operations never fails. *)
Definition kind_of (a : value) : nat :=
  match a with VNone => 0 | VCon _ => 1 | VMulti _ => 2 | VReq _ => 3 | VInfo _ => 4 | VPkg _ => 5 | VRule _ => 6 | VJob _ => 7 | VOp _ => 8 end.
Theorem C77_same_kind : ∀ a b, possible a → possible b → kind_of a = kind_of b → kind_of a ≠ 7%nat → is_ok (py_eq a b) = true.
Proof.
  intros a b Ha Hb Hk H7. destruct (py_eq a b) as [|e] eqn:E; [done|]. apply C77_raises in E as [_ H]; [|done|done]. exfalso.
  destruct H as [? b Hn|? b Hn|? a Hn ?| |? b Hn|? a Hn ?| |]; cbn in *; try done; try (by destruct b); try (by destruct a).
  destruct Hn as [Hn|[? ->]]; [by destruct b|done].
Qed.
(** One would expect == to be symmetric and never to fail: a requirement is compared with a repository of another name
    in one order only; a requirement cannot be compared with None, nor an upgrade job with an install job. *)
Theorem C77_symmetric_refuted :
  ∃ a b, possible a ∧ possible b ∧ py_eq a b = Ok false ∧ py_eq b a = Raise AttributeError.
Proof. exists (VReq (Req RInstall "numpy" [CAny])), (VInfo "remote"). done. Qed.
Theorem C77_none_refuted : ∀ r, py_eq (VReq r) VNone = Raise AttributeError ∧ py_eq VNone (VReq r) = Raise AttributeError.
Proof. done. Qed.

(** ** Equal objects have equal hashes, whatever the hash functions *)
Theorem C77_hash : ∀ h_str h_version h_int h_deps h_any h_tuple a b, possible a → possible b → py_eq a b = Ok true →
  hash h_str h_version h_int h_deps h_any h_tuple a = hash h_str h_version h_int h_deps h_any h_tuple b.
Proof.
  intros h_str h_version h_int h_deps h_any h_tuple a b Ha Hb H. apply C77_equal in H; [|done|done].
  destruct H as [| | |r s [E1 E2]| |p q (E1 & E2 & E3 & E4 & E5)|r s E| | | | |]; cbn; try done.
  - by rewrite E1, E2.
  - unfold hash_plain. by rewrite E1, E2, E3, E4, E5.
  - by rewrite E.
Qed.

(** ** Equal objects behave alike, except where the comparison looks away *)
Theorem C77_interchangeable :
  (∀ r s, py_eq (VReq r) (VReq s) = Ok true →
     r_name r = r_name s ∧ (∀ v, req_matches r v = req_matches s v) ∧ to_constraints r = to_constraints s ∧
     has_any_version_constraint r = has_any_version_constraint s) ∧
  (∀ p q, py_eq (VPkg p) (VPkg q) = Ok true →
     p_name p = p_name q ∧ p_version p = p_version q ∧ p_requires p = p_requires q ∧ p_conflicts p = p_conflicts q) ∧
  (∀ r s, py_eq (VRule r) (VRule s) = Ok true → ru_lits r = ru_lits s).
Proof.
  split; [|split].
  - intros r s H. apply C77_equal in H; [|done|done]. inversion H as [| | |? ? [E1 E2]| | | | | | | |]; subst.
    unfold req_matches, to_constraints, has_any_version_constraint. by rewrite E1, E2.
  - intros p q H. apply C77_equal in H; [|done|done]. inversion H as [| | | | |? ? (E1 & E2 & E3 & E4 & E5)| | | | | |]; subst. done.
  - intros r s H. apply C77_equal in H; [|done|done]. by inversion H.
Qed.
(** Requirements of different classes can be equal although only one of them may be given to a pool with modifiers. *)
Theorem C77_class_refuted : ∃ r s m po,
  py_eq (VReq r) (VReq s) = Ok true ∧ po_mods po = Some m ∧
  pool_modify po r = Ok (Req RInstall "numpy" [CAny]) ∧ pool_modify po s = Raise NotImplementedError.
Proof.
  exists (Req RInstall "numpy" [CLt (V 2 0)]), (Req RConflict "numpy" [CLt (V 2 0)]), (Mods {["numpy"%string]} ∅ ∅),
    (pool_empty (Some (Mods {["numpy"%string]} ∅ ∅))).
  repeat split; vm_compute; reflexivity.
Qed.
(** Constraints in another order make another requirement, although the same versions match. *)
Theorem C77_order_refuted : ∃ r s, (∀ v, req_matches r v = req_matches s v) ∧ r_name r = r_name s ∧ py_eq (VReq r) (VReq s) = Ok false.
Proof.
  exists (Req RInstall "numpy" [CGeq (V 1 0); CLt (V 2 0)]), (Req RInstall "numpy" [CLt (V 2 0); CGeq (V 1 0)]).
  split; [|done]. intros v. unfold req_matches, multi_matches. cbn [r_cons multi_matches].
  by destruct (cmatches (CGeq (V 1 0)) v), (cmatches (CLt (V 2 0)) v).
Qed.

(** ** Non-vacuity *)
Definition ex_p : package := Pkg "numpy" (V 1 1) [("MKL", [[[CGeq (V 2 0)]]])] [] [] None.
Definition ex_q : package := Pkg "numpy" (V 1 1) [("MKL", [[[CGeq (V 2 0)]]])] [] [("numeric", [[]])] None.
Theorem C77_example :
  ex_p ≠ ex_q ∧ py_eq (VPkg ex_p) (VPkg ex_q) = Ok true ∧ py_eq (VOp (UpdateOp ex_p ex_p)) (VOp (UpdateOp ex_q ex_q)) = Ok true ∧
  py_eq (VPkg ex_p) (VReq (req_of_name RInstall "numpy")) = Raise AttributeError ∧
  py_eq (VPkg ex_p) (VReq (req_of_name RInstall "scipy")) = Ok false ∧
  possible (VJob (Job None JUpgrade)) ∧ possible (VJob (Job (Some (req_of_name RBase "numpy")) JInstall)).
Proof. repeat split; try done. Qed.

Print Assumptions C77_equal. Print Assumptions C77_equivalence. Print Assumptions C77_raises. Print Assumptions C77_same_kind.
Print Assumptions C77_hash. Print Assumptions C77_interchangeable. Print Assumptions C77_class_refuted. Print Assumptions C77_order_refuted.
