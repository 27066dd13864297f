(** * breadth_first_search *)
From Verif Require Export Graph PoolProofs.

Section bfs_proofs.
  Context {A B : Type} `{Countable A} `{Countable B}.
  Context (nbrs : A → list A) (tf : A → B) (start : A).

  (** A walk of [k] steps from the start. *)
  Inductive walk : nat → A → Prop :=
    | walk_0 : walk 0 start
    | walk_S k x y : walk k x → y ∈ nbrs x → walk (S k) y.

  (** The path as listed: consecutive nodes are neighbours. *)
  Inductive path_to : list A → A → Prop :=
    | path_start : path_to [start] start
    | path_snoc p x y : path_to p x → y ∈ nbrs x → path_to (p ++ [y]) y.
  Lemma path_walk p x : path_to p x → ∃ k, length p = S k ∧ walk k x.
  Proof.
    induction 1 as [|p x y Hp (k & Hl & Hw) Hy]; [exists 0%nat; split; [done|constructor]|].
    exists (S k). rewrite app_length, Hl. cbn. split; [lia|]. by econstructor.
  Qed.
  Lemma walk_path k x : walk k x → ∃ p, path_to p x ∧ length p = S k.
  Proof.
    induction 1 as [|k x y Hw (p & Hp & Hl) Hy].
    - exists [start]. split; [constructor|done].
    - exists (p ++ [y]). split; [by econstructor|]. rewrite app_length, Hl. cbn. lia.
  Qed.

  Notation vmap := (gmap A (option A)).

  Inductive tree (v : vmap) : nat → A → Prop :=
    | tree_0 : tree v 0 start
    | tree_S k x y : tree v k x → v !! y = Some (Some x) → y ≠ start → y ∈ nbrs x → tree v (S k) y.
  Lemma tree_walk v k x : tree v k x → walk k x.
  Proof. induction 1; [constructor|by econstructor]. Qed.
  Lemma tree_mono v v' k x : (∀ y, y ≠ start → ∀ z, v !! y = Some z → v' !! y = Some z) → tree v k x → tree v' k x.
  Proof. intros Hm. induction 1; [constructor|]. econstructor; eauto. Qed.

  (** Depth [k], which is the distance from the start. *)
  Definition at_depth (v : vmap) (k : nat) (x : A) : Prop :=
    tree v k x ∧ is_Some (v !! x) ∧ ∀ j, walk j x → (k ≤ j)%nat.
  Lemma at_depth_fun v k k' x : at_depth v k x → at_depth v k' x → k = k'.
  Proof.
    intros (T & _ & M) (T' & _ & M'). apply tree_walk in T, T'. specialize (M _ T'). specialize (M' _ T). lia.
  Qed.
  Lemma at_depth_mono v v' k x : (∀ y z, v !! y = Some z → v' !! y = Some z) → at_depth v k x → at_depth v' k x.
  Proof.
    intros Hm (T & [z S] & M). split; [|split; [eauto|done]]. eapply tree_mono; [|done]. eauto.
  Qed.

  (** Backtracking along the tree. *)
  Lemma backtrack_go_spec v k x : tree v k x → ∀ fuel acc, (k ≤ fuel)%nat →
    ∃ p, backtrack_go fuel start x v acc = Ok (p ++ acc) ∧ path_to (p ++ [x]) x ∧ length p = k.
  Proof.
    induction 1 as [|k x y Ht IH Hv Hne Hy]; intros fuel acc Hf.
    - exists []. split; [|split; [constructor|done]]. unfold backtrack_go. destruct fuel; by rewrite decide_True.
    - destruct fuel as [|fuel]; [lia|]. cbn [backtrack_go]. rewrite decide_False by done.
      rewrite Hv. cbn [of_option mbind res_bind].
      destruct (IH fuel (x :: acc)) as (p & E & Hp & Hl); [lia|]. exists (p ++ [x]). rewrite E.
      split; [by rewrite <-app_assoc|]. split; [by econstructor|]. rewrite app_length, Hl. cbn. lia.
  Qed.
  (** Depths are smaller than the number of visited nodes. *)
  Lemma at_depth_size v k x : (∀ j y, tree v j y → at_depth v j y) → tree v k x → (k < size v)%nat.
  Proof.
    intros Hall Ht. assert (G : ∃ X : gset A, X ⊆ dom v ∧ size X = S k ∧ ∀ y, y ∈ X → ∃ j, (j ≤ k)%nat ∧ tree v j y).
    { induction Ht as [|k x y Ht IH Hv Hne Hy].
      - exists {[start]}. split; [|split; [apply size_singleton|]].
        + intros y ->%elem_of_singleton. destruct (Hall 0%nat start) as (_ & Hs & _); [constructor|]. by apply elem_of_dom.
        + intros y ->%elem_of_singleton. exists 0%nat. split; [done|constructor].
      - destruct IH as (X & HX & Hsz & HT). exists ({[y]} ∪ X).
        assert (HyT : tree v (S k) y) by (by econstructor).
        split; [|split].
        + intros z [->%elem_of_singleton|Hz]%elem_of_union; [by apply elem_of_dom_2 in Hv|auto].
        + rewrite size_union, size_singleton, Hsz; [done|]. intros z ->%elem_of_singleton Hz.
          destruct (HT y Hz) as (j & Hj & Tj). apply Hall in Tj, HyT. assert (j = S k) by (by eapply at_depth_fun). lia.
        + intros z [->%elem_of_singleton|Hz]%elem_of_union; [eauto|].
          destruct (HT z Hz) as (j & Hj & Tj). exists j. split; [lia|done]. }
    destruct G as (X & HX & Hsz & _). apply subseteq_size in HX. rewrite size_dom in HX. lia.
  Qed.

  (** The invariant of the main loop. *)
  Record binv (q : list A) (v : vmap) (d : nat) (q1 q2 : list A) : Prop := {
    bi_q : q = q1 ++ q2;
    bi_nd : NoDup q;
    bi_all : ∀ x, is_Some (v !! x) → ∃ k, at_depth v k x;
    bi_tree : ∀ j y, tree v j y → at_depth v j y;
    bi_q1 : ∀ x, x ∈ q1 → at_depth v d x;
    bi_q2 : ∀ x, x ∈ q2 → at_depth v (S d) x;
    bi_done : ∀ x y, is_Some (v !! x) → x ∉ q → y ∈ nbrs x → is_Some (v !! y);
    bi_le : ∀ j x, walk j x → (j ≤ d)%nat → is_Some (v !! x) }.

  Lemma binv_shift q v d q2 : binv q v d [] q2 → binv q v (S d) q2 [].
  Proof.
    intros [B1 B2 B3 B4 B5 B6 B7 B8]. split; try done.
    - by rewrite app_nil_r.
    - intros x Hx. by apply elem_of_nil in Hx.
    - intros j x Hw Hj. destruct (decide (j ≤ d)%nat) as [|Hgt]; [eauto|].
      destruct Hw as [|k u x Hw Hx]; [apply (B8 0%nat start); [constructor|lia]|].
      assert (Hu : is_Some (v !! u)) by (apply (B8 k); [done|lia]).
      apply (B7 u); [done| |done]. intros Huq. cbn in B1. subst q. destruct (B6 u Huq) as (_ & _ & M).
      specialize (M _ Hw). lia.
  Qed.

  (** Visiting the neighbours of the node taken from the queue. *)
  Lemma visit_spec n d q1 l : ∀ q v q2, q = q1 ++ q2 → NoDup q → n ∉ q →
    (∀ x, is_Some (v !! x) → ∃ k, at_depth v k x) → (∀ j y, tree v j y → at_depth v j y) →
    at_depth v d n → (∀ x, x ∈ q1 → at_depth v d x) → (∀ x, x ∈ q2 → at_depth v (S d) x) →
    (∀ j x, walk j x → (j ≤ d)%nat → is_Some (v !! x)) → (∀ y, y ∈ l → y ∈ nbrs n) →
    ∃ q2' v', foldl (visit n) (q, v) l = (q1 ++ q2', v') ∧ NoDup (q1 ++ q2') ∧ n ∉ q1 ++ q2' ∧
      (∀ x, x ∈ q → x ∈ q1 ++ q2') ∧
      (∀ x z, v !! x = Some z → v' !! x = Some z) ∧
      (∀ x, is_Some (v' !! x) → is_Some (v !! x) ∨ x ∈ q1 ++ q2') ∧
      (∀ x, is_Some (v' !! x) → ∃ k, at_depth v' k x) ∧ (∀ j y, tree v' j y → at_depth v' j y) ∧
      (∀ x, x ∈ q2' → at_depth v' (S d) x) ∧ (∀ y, y ∈ l → is_Some (v' !! y)).
  Proof.
    induction l as [|y l IH]; intros q v q2 -> Hnd Hnq Hall Htree Hn H1 H2 Hle Hl; cbn [foldl].
    { exists q2, v. repeat (split; [done|]). split; [eauto|]. repeat (split; [done|]).
      intros y Hy. by apply elem_of_nil in Hy. }
    unfold visit at 2. cbn [fst snd]. destruct (v !! y) as [z|] eqn:Ey.
    - destruct (IH _ v q2 eq_refl Hnd Hnq Hall Htree Hn H1 H2 Hle) as (q2' & v' & E & P1 & P2 & P3 & P4 & P5 & P6 & P7 & P8 & P9).
      { intros y' Hy'. apply Hl. by right. }
      exists q2', v'. repeat (split; [done|]). intros y' [->|Hy']%elem_of_cons; eauto.
    - assert (Hys : y ≠ start).
      { intros ->. destruct (Hle 0%nat start) as [z Hz]; [constructor|lia|congruence]. }
      set (v1 := <[y := Some n]> v).
      assert (Hm : ∀ x z, v !! x = Some z → v1 !! x = Some z).
      { intros x z Hx. unfold v1. rewrite lookup_insert_ne; [done|]. intros ->. congruence. }
      assert (Hy : at_depth v1 (S d) y).
      { split; [|split].
        - econstructor; [eapply tree_mono; [|apply Hn]; eauto|by unfold v1; rewrite lookup_insert|done|apply Hl; left].
        - unfold v1. rewrite lookup_insert. eauto.
        - intros j Hw. destruct (decide (S d ≤ j)%nat) as [|Hlt]; [done|].
          destruct (Hle j y Hw) as [z Hz]; [lia|congruence]. }
      assert (Hbk : ∀ k x, tree v1 k x → x = y ∨ tree v k x).
      { (* a new tree path can only end in the new node *)
        induction 1 as [|k x w Ht IHt Hw Hne Hin]; [right; constructor|].
        destruct (decide (w = y)) as [->|Hwy]; [by left|right].
        unfold v1 in Hw. rewrite lookup_insert_ne in Hw by done.
        destruct IHt as [->|IHt]; [|by econstructor].
        (* the parent [y] was not visited, so nothing points to it *)
        exfalso. destruct (Hall w) as (kk & Tw & _ & _); [eauto|].
        inversion Tw as [|k' x' ? Tx Hx']; subst; [done|]. rewrite Hw in Hx'. injection Hx' as <-.
        apply Htree in Tx as (_ & [z Hz] & _). congruence. }
      destruct (IH ((q1 ++ q2) ++ [y]) v1 (q2 ++ [y])) as (q2' & v' & E & P1 & P2 & P3 & P4 & P5 & P6 & P7 & P8 & P9).
      + by rewrite app_assoc.
      + apply NoDup_app. split; [done|]. split; [|apply NoDup_singleton].
        intros x Hx ->%elem_of_list_singleton. assert (Hs : is_Some (v !! y)).
        { apply elem_of_app in Hx as [Hx|Hx]; [by apply H1|by apply H2]. }
        destruct Hs; congruence.
      + rewrite elem_of_app, elem_of_list_singleton. intros [?|<-]; [done|].
        destruct Hn as (_ & [z Hz] & _). congruence.
      + intros x [z Hx]. unfold v1 in Hx. destruct (decide (x = y)) as [->|Hne]; [eauto|].
        rewrite lookup_insert_ne in Hx by done. destruct (Hall x) as [k Hk]; [eauto|]. exists k. by eapply at_depth_mono.
      + intros j w Ht. destruct (decide (w = y)) as [->|Hwy].
        * inversion Ht as [|k' x' ? Tx Hx']; subst; [done|]. unfold v1 in Hx'. rewrite lookup_insert in Hx'.
          injection Hx' as <-. apply Hbk in Tx as [->|Tx].
          { exfalso. destruct Hn as (_ & [z Hz] & _). congruence. }
          apply Htree in Tx. assert (k' = d) as -> by (by eapply at_depth_fun). done.
        * apply Hbk in Ht as [->|Ht]; [done|]. eapply at_depth_mono; [done|auto].
      + by eapply at_depth_mono.
      + intros x Hx. eapply at_depth_mono; [done|auto].
      + intros x [Hx|Hx]%elem_of_app; [eapply at_depth_mono; [done|auto]|].
        by apply elem_of_list_singleton in Hx as ->.
      + intros j x Hw Hj. destruct (Hle j x Hw Hj) as [z Hz]. eauto.
      + intros y' Hy'. apply Hl. by right.
      + exists q2', v'. split; [done|]. split; [done|]. split; [done|].
        split; [intros x Hx; apply P3; rewrite elem_of_app; by left|].
        split; [eauto|]. split.
        { intros x Hx. destruct (P5 x Hx) as [[z Hz]|?]; [|by right].
          destruct (decide (x = y)) as [->|Hne].
          - right. apply P3. rewrite !elem_of_app, elem_of_list_singleton. by right.
          - left. unfold v1 in Hz. rewrite lookup_insert_ne in Hz by done. eauto. }
        split; [done|]. split; [done|]. split; [done|].
        intros y' [->|Hy']%elem_of_cons; [|auto]. exists (Some n). apply P4. unfold v1. by rewrite lookup_insert.
  Qed.

  Lemma binv_step n q v d q1 q2 : binv (n :: q) v d (n :: q1) q2 →
    ∃ q2' v', foldl (visit n) (q, v) (nbrs n) = (q1 ++ q2', v') ∧ binv (q1 ++ q2') v' d q1 q2' ∧
      (∀ x z, v !! x = Some z → v' !! x = Some z) ∧ n ∉ q1 ++ q2' ∧
      (∀ x, x ∈ q → x ∈ q1 ++ q2') ∧ (∀ x, is_Some (v' !! x) → is_Some (v !! x) ∨ x ∈ q1 ++ q2').
  Proof.
    intros [B1 B2 B3 B4 B5 B6 B7 B8]. injection B1 as ->. apply NoDup_cons in B2 as [Bn B2].
    destruct (visit_spec n d q1 (nbrs n) (q1 ++ q2) v q2 eq_refl B2 Bn B3 B4) as
      (q2' & v' & E & P1 & P2 & P3 & P4 & P5 & P6 & P7 & P8 & P9); auto.
    { apply B5. left. }
    { intros x Hx. apply B5. by right. }
    exists q2', v'. split; [done|]. split; [|done]. split; try done.
    - intros x Hx. eapply at_depth_mono; [done|]. apply B5. by right.
    - intros x y Hx Hnq Hy. destruct (decide (x = n)) as [->|Hxn]; [auto|].
      destruct (P5 x Hx) as [Hx'|?]; [|done].
      destruct (B7 x y Hx') as [z Hz]; [|done|eauto]. intros [->|Hin]%elem_of_cons; [done|]. by apply Hnq, P3.
    - intros j x Hw Hj. destruct (B8 j x Hw Hj) as [z Hz]. eauto.
  Qed.

  (** The outcome: one shortest path for every target that can be reached. *)
  Definition shortest (p : list A) (t : B) : Prop :=
    ∃ x, path_to p x ∧ tf x = t ∧ ∀ p' x', path_to p' x' → tf x' = t → (length p ≤ length p')%nat.

  Lemma bfs_loop_spec (F : gset A) (HF : ∀ k x, walk k x → x ∈ F) fuel : ∀ q v targets d q1 q2,
    binv q v d q1 q2 → (∀ x, is_Some (v !! x) → x ∉ q → tf x ∉ targets) →
    (size F - size v + length q < fuel)%nat →
    ∃ paths ts, bfs_loop nbrs tf fuel start q v targets = Ok paths ∧
      Forall2 shortest paths ts ∧ NoDup ts ∧
      (∀ t, t ∈ ts ↔ t ∈ targets ∧ ∃ k x, walk k x ∧ tf x = t).
  Proof.
    induction fuel as [|fuel IH]; intros q v targets d q1 q2 HB Htg Hf; [lia|]. cbn [bfs_loop].
    destruct q as [|n q].
    { exists [], []. split; [done|]. split; [constructor|]. split; [constructor|]. intros t.
      split; [intros Ht; by apply elem_of_nil in Ht|]. intros (Ht & k & x & Hw & <-). exfalso.
      assert (Hv : is_Some (v !! x)).
      { clear Ht. induction Hw as [|k x y Hw IHw Hy]; [apply (bi_le _ _ _ _ _ HB 0%nat); [constructor|lia]|].
        eapply (bi_done _ _ _ _ _ HB); [exact IHw|apply not_elem_of_nil|done]. }
      by apply (Htg x Hv (not_elem_of_nil _)). }
    (* the first queue is not empty, after a shift if necessary *)
    assert (HB' : ∃ d q1 q2, binv (n :: q) v d (n :: q1) q2).
    { destruct q1 as [|n1 q1].
      - apply binv_shift in HB. assert (E := bi_q _ _ _ _ _ HB). rewrite app_nil_r in E. subst q2. eauto.
      - assert (E := bi_q _ _ _ _ _ HB). injection E as <- _. eauto. }
    clear HB d q1 q2. destruct HB' as (d & q1 & q2 & HB).
    assert (Hdn : at_depth v d n) by (apply (bi_q1 _ _ _ _ _ HB); left).
    (* every node nearer than [n] has been examined *)
    assert (Hmin : ∀ j x, walk j x → tf x ∈ targets → (d ≤ j)%nat).
    { intros j x Hw Hx. destruct (decide (d ≤ j)%nat) as [|Hlt]; [done|]. exfalso.
      assert (Hv : is_Some (v !! x)) by (apply (bi_le _ _ _ _ _ HB j); [done|lia]).
      apply (Htg x Hv); [|done]. rewrite (bi_q _ _ _ _ _ HB). intros Hin.
      assert (Hd : (d ≤ j)%nat); [|lia]. apply elem_of_app in Hin as [Hin|Hin].
      - destruct (bi_q1 _ _ _ _ _ HB x Hin) as (_ & _ & M). auto.
      - destruct (bi_q2 _ _ _ _ _ HB x Hin) as (_ & _ & M). specialize (M j Hw). lia. }
    destruct (binv_step n q v d q1 q2 HB) as (q2' & v' & E & HB2 & Hext & Hnq & Hq & Hnew).
    set (targets' := if bool_decide (tf n ∈ targets) then targets ∖ {[tf n]} else targets).
    assert (Ht' : ∀ t, t ∈ targets' ↔ t ∈ targets ∧ t ≠ tf n).
    { intros t. unfold targets'. case_bool_decide as Hb.
      - rewrite elem_of_difference, elem_of_singleton. done.
      - split; [|tauto]. intros Ht. split; [done|]. intros ->. done. }
    assert (Hout : ∃ out ts0, (if bool_decide (tf n ∈ targets) then p ← backtrack n start v; Ok [p] else Ok []) = Ok out ∧
      Forall2 shortest out ts0 ∧ NoDup ts0 ∧ (∀ t, t ∈ ts0 ↔ t ∈ targets ∧ t = tf n)).
    { case_bool_decide as Hb.
      - destruct Hdn as (Tn & Sn & Mn).
        destruct (backtrack_go_spec v d n Tn (size v) [n]) as (p & Ep & Hp & Hl).
        { assert (Hs := at_depth_size v d n (bi_tree _ _ _ _ _ HB) Tn). lia. }
        unfold backtrack. rewrite Ep. cbn. exists [p ++ [n]], [tf n]. split; [done|]. split; [|split].
        + constructor; [|constructor]. exists n. split; [done|]. split; [done|]. intros p' x' Hp' Hx'.
          apply path_walk in Hp' as (k & -> & Hw). rewrite app_length, Hl. cbn.
          assert (d ≤ k)%nat by (eapply Hmin; [done|by rewrite Hx']). lia.
        + apply NoDup_singleton.
        + intros t. rewrite elem_of_list_singleton. naive_solver.
      - exists [], []. split; [done|]. split; [constructor|]. split; [constructor|]. intros t.
        split; [intros Ht; by apply elem_of_nil in Ht|]. intros [? ->]. done. }
    destruct Hout as (out & ts0 & Eo & Fo & No & To). rewrite Eo. cbn [mbind res_bind].
    fold targets'. destruct (decide (targets' = ∅)) as [Hemp|Hemp].
    { exists out, ts0. split; [done|]. split; [done|]. split; [done|]. intros t. rewrite To. split.
      - intros [Ht ->]. split; [done|]. exists d, n. split; [by apply (tree_walk v), Hdn|done].
      - intros (Ht & _). split; [done|]. destruct (decide (t = tf n)) as [|Hne]; [done|]. exfalso.
        assert (Hin : t ∈ targets') by (apply Ht'; done). rewrite Hemp in Hin. by apply not_elem_of_empty in Hin. }
    rewrite E. destruct (IH (q1 ++ q2') v' targets' d q1 q2' HB2) as (paths & ts & Er & Fr & Nr & Tr).
    - intros x Hx Hnx Hin. apply Ht' in Hin as [Hin Hne]. destruct (Hnew x Hx) as [Hx'|?]; [|done].
      eapply (Htg x Hx'); [|done]. intros [->|Hxq]%elem_of_cons; [done|]. by apply Hnx, Hq.
    - (* every new visited node costs one queue entry; the node is removed *)
      assert (Hsz : (size v' + length q ≤ size v + length (q1 ++ q2') ∧ length q ≤ length (q1 ++ q2') )%nat ∧
                    (length (q1 ++ q2') + size v ≤ size v' + length q)%nat).
      { clear -E H. revert E. generalize (nbrs n) as l. generalize (q1 ++ q2') as qf. intros qf l. revert q v.
        induction l as [|y l IHl]; intros q v; cbn [foldl].
        - intros [= <- <-]. lia.
        - unfold visit at 2. cbn [fst snd]. destruct (v !! y) as [z|] eqn:Ey.
          + apply IHl.
          + intros E2. apply IHl in E2. rewrite map_size_insert_None in E2 by done.
            rewrite app_length in E2. cbn in E2. lia. }
      assert (HvF : (size v' ≤ size F)%nat).
      { rewrite <-size_dom. apply subseteq_size. intros x Hx%elem_of_dom.
        destruct (bi_all _ _ _ _ _ HB2 x Hx) as (k & T & _). eapply HF, tree_walk, T. }
      cbn [length] in Hf. lia.
    - rewrite Er. cbn [mbind res_bind]. exists (out ++ paths), (ts0 ++ ts). split; [done|].
      split; [by apply Forall2_app|]. split.
      + apply NoDup_app. split; [done|]. split; [|done]. intros t Ht0 Ht. apply To in Ht0 as [_ ->].
        apply Tr in Ht as [Ht _]. by apply Ht' in Ht as [_ ?].
      + intros t. rewrite elem_of_app, To, Tr, Ht'. split.
        * intros [[Ht ->]|[[Ht _] Hw]]; [|done]. split; [done|]. exists d, n. split; [by apply (tree_walk v), Hdn|done].
        * intros [Ht Hw]. destruct (decide (t = tf n)) as [->|Hne]; [by left|by right].
  Qed.

  Lemma bfs_spec (F : gset A) fuel targets : (∀ k x, walk k x → x ∈ F) → (S (size F) < fuel)%nat →
    ∃ paths ts, breadth_first_search nbrs tf fuel start targets = Ok paths ∧
      Forall2 shortest paths ts ∧ NoDup ts ∧
      (∀ t, t ∈ ts ↔ t ∈ targets ∧ ∃ k x, walk k x ∧ tf x = t).
  Proof.
    intros HF Hf. unfold breadth_first_search.
    set (v := {[start := None]} : vmap).
    assert (Hd : at_depth v 0 start).
    { split; [constructor|]. split; [unfold v; rewrite lookup_singleton; eauto|intros; lia]. }
    apply (bfs_loop_spec F HF fuel [start] v targets 0 [start] []).
    - split.
      + done.
      + apply NoDup_singleton.
      + intros x [z Hz]. unfold v in Hz. apply lookup_singleton_Some in Hz as [<- _]. eauto.
      + intros j y Ht. destruct Ht as [|k x y Ht Hy Hne _]; [done|]. unfold v in Hy.
        apply lookup_singleton_Some in Hy as [<- _]. done.
      + intros x ->%elem_of_list_singleton. done.
      + intros x Hx. by apply elem_of_nil in Hx.
      + intros x y [z Hx] Hnq. unfold v in Hx. apply lookup_singleton_Some in Hx as [<- _]. exfalso. apply Hnq. left.
      + intros j x Hw Hj. assert (j = 0%nat) as -> by lia. inversion Hw; subst. apply Hd.
    - intros x [z Hx] Hnq. unfold v in Hx. apply lookup_singleton_Some in Hx as [<- _]. exfalso. apply Hnq. left.
    - cbn [length]. unfold v. rewrite map_size_singleton. lia.
  Qed.
End bfs_proofs.
