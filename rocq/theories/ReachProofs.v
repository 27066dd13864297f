(** * connected_nodes, transitive_neighbors *)
From Verif Require Export TopoProofs PoolProofs.


Section connected.
  Context (ord : nat → gset Z → list Z) (Hord : ∀ n X, ord n X ≡ₚ elements X).
  Context (nb : Z → res (gset Z)).

  (** Reached from the start node, not continuing through nodes of [V]. *)
  Inductive flood (V : gset Z) (start : Z) : Z → Prop :=
    | flood_start : flood V start start
    | flood_step x y ns : flood V start x → nb x = Ok ns → y ∈ ns → y ∉ V → flood V start y.

  (** Whatever is returned is closed under the neighbours of everything expanded, and minimal. *)
  Lemma connected_loop_inv fuel : ∀ queue visited X, connected_loop ord nb fuel queue visited = Ok X →
    visited ⊆ X ∧ queue ⊆ X ∧
    (∀ x, x ∈ X → x ∉ visited ∨ x ∈ queue → ∃ ns, nb x = Ok ns ∧ ns ⊆ X) ∧
    (∀ V start, V ⊆ visited → (∀ x, x ∈ queue → flood V start x) → (∀ x, x ∈ visited → x ∈ V ∨ flood V start x) →
       ∀ x, x ∈ X → x ∈ V ∨ flood V start x).
  Proof.
    induction fuel as [|fuel IH]; intros queue visited X; cbn [connected_loop]; [done|].
    destruct (ord (S fuel) queue) as [|n q] eqn:Eo.
    - intros [= <-]. assert (queue = ∅) as ->.
      { apply leibniz_equiv, elements_empty_iff. apply Permutation_nil_r. rewrite <-(Hord (S fuel)). by rewrite Eo. }
      split; [done|]. split; [set_solver|]. split; [set_solver|]. set_solver.
    - assert (Hn : n ∈ queue).
      { apply elem_of_elements. rewrite <-(Hord (S fuel)), Eo. left. }
      destruct (nb n) as [ns|] eqn:En; cbn [mbind res_bind]; [|done].
      intros H. apply IH in H as (H1 & H2 & H3 & H4).
      assert (HnX : n ∈ X) by (apply H1; clear; set_solver).
      assert (Hns : ns ⊆ X).
      { intros y Hy. destruct (decide (y ∈ {[n]} ∪ visited)) as [Hd|Hd]; [by apply H1|].
        apply H2. apply elem_of_union_r, elem_of_difference. done. }
      split; [intros y Hy; apply H1; by apply elem_of_union_r|]. split.
      { intros y Hy. destruct (decide (y = n)) as [->|Hne]; [done|]. apply H2.
        apply elem_of_union_l, elem_of_difference. split; [done|]. by rewrite elem_of_singleton. }
      split.
      + intros x Hx Hor. destruct (decide (x = n)) as [->|Hne]; [eauto|].
        apply H3; [done|]. destruct Hor as [Hv|Hq].
        * left. rewrite elem_of_union, elem_of_singleton. tauto.
        * right. apply elem_of_union_l, elem_of_difference. split; [done|]. by rewrite elem_of_singleton.
      + intros V start HV Hq Hvis. apply H4.
        * intros y Hy. apply elem_of_union_r. auto.
        * intros x [Hx|Hx]%elem_of_union.
          -- apply Hq. by apply elem_of_difference in Hx as [? _].
          -- apply elem_of_difference in Hx as [Hx Hxv]. eapply flood_step; [apply Hq, Hn|done|done|].
             intros Hin. apply Hxv, elem_of_union_r. auto.
        * intros x [->%elem_of_singleton|Hx]%elem_of_union; [right; by apply Hq|auto].
  Qed.

  Lemma connected_nodes_inv fuel start V X : connected_nodes ord nb fuel start V = Ok X →
    (∀ x, x ∈ X ↔ x ∈ V ∨ flood V start x) ∧ (∀ x, flood V start x → ∃ ns, nb x = Ok ns).
  Proof.
    unfold connected_nodes. intros H. apply connected_loop_inv in H as (H1 & H2 & H3 & H4).
    assert (Hfl : ∀ x, flood V start x → x ∈ X ∧ (x ∉ V ∨ x ∈ ({[start]} : gset Z))).
    { induction 1 as [|x y ns Hx [IH1 IH2] Hns Hy HyV].
      - split; [apply H2; set_solver|right; set_solver].
      - split; [|by left]. destruct (H3 x IH1 IH2) as (ns' & Hns' & Hsub). rewrite Hns in Hns'.
        injection Hns' as <-. by apply Hsub. }
    split.
    - intros x. split.
      + apply (H4 V start); [done| |by left]. intros y ->%elem_of_singleton. constructor.
      + intros [Hx|Hx]; [by apply H1|by apply Hfl].
    - intros x Hx. destruct (Hfl x Hx) as [HX Hor]. destruct (H3 x HX Hor) as (ns & ? & _). eauto.
  Qed.

  (** It terminates within as many steps as there are nodes to reach. *)
  Lemma connected_loop_total (F : gset Z) fuel : ∀ queue visited,
    (size (F ∖ visited) < fuel)%nat → queue ⊆ F ∖ visited →
    (∀ x, x ∈ F → ∃ ns, nb x = Ok ns ∧ ns ⊆ F ∪ visited) → is_ok (connected_loop ord nb fuel queue visited) = true.
  Proof.
    induction fuel as [|fuel IH]; intros queue visited Hf Hq Hn; [lia|]. cbn [connected_loop].
    destruct (ord (S fuel) queue) as [|n q] eqn:Eo; [done|].
    assert (Hnq : n ∈ queue).
    { apply elem_of_elements. rewrite <-(Hord (S fuel)), Eo. left. }
    assert (HnF := Hq n Hnq). apply elem_of_difference in HnF as [HnF Hnv].
    destruct (Hn n HnF) as (ns & -> & Hns). cbn [mbind res_bind]. apply IH.
    - assert (size (F ∖ ({[n]} ∪ visited)) < size (F ∖ visited))%nat; [|lia]. apply subset_size.
      clear -HnF Hnv. split; [set_solver|]. intros Hs.
      assert (Hc : n ∈ F ∖ ({[n]} ∪ visited)) by (apply Hs; set_solver). set_solver.
    - clear -Hq Hns. intros x Hx. set_solver.
    - intros x Hx. destruct (Hn x Hx) as (ns' & Hns' & Hsub). exists ns'. split; [done|]. clear -Hsub. set_solver.
  Qed.
  Lemma connected_nodes_total (F : gset Z) fuel start V :
    (size F < fuel)%nat → (∀ x, flood V start x → x ∈ F) →
    (∀ x, flood V start x → ∃ ns, nb x = Ok ns) → is_ok (connected_nodes ord nb fuel start V) = true.
  Proof.
    (* the first step expands the start node even if it is in V *)
    intros Hf HF Hn. unfold connected_nodes. destruct fuel as [|fuel]; [lia|]. cbn [connected_loop].
    destruct (ord (S fuel) {[start]}) as [|n q] eqn:Eo; [done|].
    assert (n = start) as ->.
    { apply (elem_of_singleton (C := gset Z)), elem_of_elements. rewrite <-(Hord (S fuel)), Eo. left. }
    destruct (Hn start (flood_start _ _)) as (ns & Ens). rewrite Ens. cbn [mbind res_bind].
    assert (G : ∀ fuel queue visited, (size (F ∖ visited) < fuel)%nat → V ⊆ visited →
       (∀ x, x ∈ queue → x ∉ visited ∧ flood V start x) →
       is_ok (connected_loop ord nb fuel queue visited) = true).
    { clear fuel Hf Eo. induction fuel as [|fuel IH]; intros queue visited Hsz HV Hq; [lia|]. cbn [connected_loop].
      destruct (ord (S fuel) queue) as [|n q'] eqn:Eo; [done|].
      assert (Hnq : n ∈ queue).
      { apply elem_of_elements. rewrite <-(Hord (S fuel)), Eo. left. }
      destruct (Hq n Hnq) as [Hnv Hfl]. destruct (Hn n Hfl) as (ns' & Hns'). rewrite Hns'. cbn [mbind res_bind].
      apply IH.
      - assert (size (F ∖ ({[n]} ∪ visited)) < size (F ∖ visited))%nat; [|lia]. apply subset_size.
        specialize (HF n Hfl). clear -HF Hnv. split; [set_solver|]. intros Hs.
        assert (Hc : n ∈ F ∖ ({[n]} ∪ visited)) by (apply Hs; set_solver). set_solver.
      - clear -HV. set_solver.
      - intros x [[Hx Hxn]%elem_of_difference|[Hx Hxv]%elem_of_difference]%elem_of_union.
        + split; [|by apply Hq]. rewrite elem_of_union. intros [?|?]; [done|]. by apply (Hq x).
        + split; [done|]. eapply flood_step; [exact Hfl|done|done|]. intros HxV. apply Hxv, elem_of_union_r. auto. }
    apply G.
    - assert (Hs := HF start (flood_start _ _)).
      assert (size (F ∖ ({[start]} ∪ V)) < size F)%nat; [|lia]. apply subset_size.
      clear -Hs. split; [set_solver|]. intros Hc. assert (start ∈ F ∖ ({[start]} ∪ V)) by (by apply Hc). set_solver.
    - clear. set_solver.
    - intros x [Hx|[Hx Hxv]%elem_of_difference]%elem_of_union; [clear -Hx; set_solver|].
      split; [done|]. eapply flood_step; [constructor|exact Ens|done|]. intros HxV. apply Hxv. by apply elem_of_union_r.
  Qed.
End connected.

(** ** transitive_neighbors *)
(** Edges, self-loops included. *)
Definition arc (g : graph) (a b : Z) : Prop := ∃ s, g !! a = Some s ∧ b ∈ s.
(** Every neighbour is a node. *)
Definition closed_graph (g : graph) : Prop := ∀ a b, arc g a b → is_Some (g !! b).

Lemma edge_arc g a b : edge g a b → arc g a b.
Proof. intros (s & ? & ? & _). by exists s. Qed.

Section transitive.
  Context (ord : gset Z → list Z) (Hord : ∀ X, ord X ≡ₚ elements X) (g : graph) (Hc : closed_graph g).

  Definition tsound (t : graph) : Prop :=
    ∀ k s, t !! k = Some s → (∀ x, arc g k x → x ∈ s) ∧ ∀ x, x ∈ s → tc (arc g) k x.
  Definition tcomplete (t : graph) (k : Z) : Prop :=
    ∀ s, t !! k = Some s → ∀ x, tc (arc g) k x → x ∈ s.

  Lemma transitive_go_spec fuel : ∀ n t,
    (size (dom g ∖ dom t) < fuel)%nat → is_Some (g !! n) → dom t ⊆ dom g →
    ∃ t', transitive_go ord g fuel n t = Ok t' ∧ dom t ⊆ dom t' ∧ dom t' ⊆ dom g ∧ n ∈ dom t' ∧
      (∀ k, k ∈ dom t → t' !! k = t !! k) ∧ (tsound t → tsound t') ∧
      ((∀ a, ¬ tc (edge g) a a) → ∀ P : gset Z,
         (∀ k, k ∈ dom t → k ∉ P → tcomplete t k) → (∀ p, p ∈ P → tc (edge g) p n) → tsound t →
         ∀ k, k ∈ dom t' → k ∉ P → tcomplete t' k).
  Proof.
    induction fuel as [|fuel IH]; intros n t Hf Hn Hd; [lia|]. cbn [transitive_go].
    destruct (t !! n) as [s0|] eqn:Et.
    { exists t. split; [done|]. split; [done|]. split; [done|]. split; [by apply elem_of_dom_2 in Et|].
      split; [done|]. split; [done|]. eauto. }
    destruct Hn as [ns Hns]. rewrite Hns. cbn [of_option mbind res_bind].
    assert (Hnt : n ∉ dom t) by (by apply not_elem_of_dom).
    assert (Hng : n ∈ dom g) by (by apply elem_of_dom_2 in Hns).
    (* the loop over the neighbours *)
    assert (L : ∀ l t1, (∀ b, b ∈ l → b ∈ ns) → {[n]} ∪ dom t ⊆ dom t1 → dom t1 ⊆ dom g →
      (∀ k, k ∈ dom t → t1 !! k = t !! k) → (tsound t → tsound t1) →
      ∃ t', foldM (λ t nb, t ← transitive_go ord g fuel nb t;
                   Ok (<[n := default ∅ (t !! n) ∪ default ∅ (t !! nb)]> t)) l t1 = Ok t' ∧
        dom t1 ⊆ dom t' ∧ dom t' ⊆ dom g ∧ (∀ k, k ∈ dom t → t' !! k = t !! k) ∧ (tsound t → tsound t') ∧
        ((∀ a, ¬ tc (edge g) a a) → ∀ P : gset Z, n ∉ P →
           (∀ k, k ∈ dom t1 → k ∉ P → k ≠ n → tcomplete t1 k) → (∀ p, p ∈ P → tc (edge g) p n) → tsound t →
           (∀ k, k ∈ dom t' → k ∉ P → k ≠ n → tcomplete t' k) ∧
           (∀ s1 s', t1 !! n = Some s1 → t' !! n = Some s' → s1 ⊆ s' ∧
              ∀ b x, b ∈ l → b ≠ n → tc (arc g) b x → x ∈ s'))).
    { induction l as [|b l IHl]; intros t1 Hl Hd1 Hd2 Hk Hs; cbn [foldM].
      { exists t1. split; [done|]. split; [done|]. split; [done|]. split; [done|]. split; [done|].
        intros _ P _ HP _ _. split; [done|]. intros s1 s' H1 H2. rewrite H1 in H2. injection H2 as <-.
        split; [done|]. intros b x Hb. by apply elem_of_nil in Hb. }
      assert (Hbns : b ∈ ns) by (apply Hl; left).
      destruct (IH b t1) as (t2 & E2 & D1 & D2 & Dn & Hk2 & Hs2 & Hc2).
      - assert (size (dom g ∖ dom t1) < size (dom g ∖ dom t))%nat; [|lia]. apply subset_size.
        clear -Hd1 Hng Hnt. split; [set_solver|]. intros Hsub.
        assert (n ∈ dom g ∖ dom t1) by (apply Hsub; set_solver). set_solver.
      - apply (Hc n). exists ns. done.
      - done.
      - rewrite E2. cbn [mbind res_bind].
        assert (Hn1 : n ∈ dom t1) by (clear -Hd1; set_solver).
        assert (Hn2 : n ∈ dom t2) by auto.
        destruct (IHl (<[n := default ∅ (t2 !! n) ∪ default ∅ (t2 !! b)]> t2))
          as (t' & E' & D1' & D2' & Hk' & Hs' & Hc').
        + intros b' Hb'. apply Hl. by right.
        + rewrite dom_insert_L. clear -D1 Hd1. set_solver.
        + rewrite dom_insert_L. clear -D2 Hng. set_solver.
        + intros k Hkt. rewrite lookup_insert_ne by (intros ->; done). rewrite Hk2; [auto|].
          clear -Hd1 Hkt. set_solver.
        + intros Hst. assert (St2 := Hs2 (Hs Hst)). intros k s. destruct (decide (k = n)) as [->|Hne].
          * rewrite lookup_insert. intros [= <-]. apply elem_of_dom in Hn2 as [sn Hsn]. rewrite Hsn.
            destruct (St2 n sn Hsn) as [S1 S2]. split; [intros x Hx; apply elem_of_union_l; cbn; auto|].
            intros x [Hx|Hx]%elem_of_union; [by apply S2|].
            destruct (t2 !! b) as [sb|] eqn:Eb; [|cbn in Hx; clear -Hx; set_solver].
            destruct (St2 b sb Eb) as [_ S3]. eapply tc_l; [by exists ns|]. by apply S3.
          * rewrite lookup_insert_ne by done. apply St2.
        + exists t'. split; [done|]. split; [rewrite dom_insert_L in D1'; clear -D1 D1'; set_solver|].
          split; [done|]. split; [done|]. split; [done|].
          intros Hac P HnP HP HPn Hst.
          assert (HnotP : b ≠ n → b ∉ P).
          { intros Hbn HbP. apply (Hac n). eapply tc_l; [|by apply HPn]. by exists ns. }
          assert (Hbn_or : b = n ∨ tcomplete t2 b ∧ ∀ k, k ∈ dom t2 → k ∉ P → k ≠ n → tcomplete t2 k).
          { destruct (decide (b = n)) as [->|Hbn]; [by left|right].
            assert (Hall : ∀ k, k ∈ dom t2 → k ∉ {[n]} ∪ P → tcomplete t2 k).
            { apply (Hc2 Hac).
              - intros k Hkd Hkp. apply HP; [done|clear -Hkp; set_solver|clear -Hkp; set_solver].
              - intros p [->%elem_of_singleton|Hp]%elem_of_union.
                + apply tc_once. by exists ns.
                + eapply tc_r; [by apply HPn|by exists ns].
              - by apply Hs. }
            split.
            - apply Hall; [done|]. rewrite elem_of_union, elem_of_singleton. naive_solver.
            - intros k H1 H2 H3. apply Hall; [done|]. rewrite elem_of_union, elem_of_singleton. naive_solver. }
          assert (HP2 : ∀ k, k ∈ dom t2 → k ∉ P → k ≠ n → tcomplete t2 k).
          { destruct Hbn_or as [->|[_ ?]]; [|done].
            (* the recursive call on the node itself changes nothing *)
            assert (t2 = t1) as ->; [|done].
            apply elem_of_dom in Hn1 as [sn1 Hsn1]. destruct fuel; cbn in E2; [done|]. rewrite Hsn1 in E2.
            by injection E2 as <-. }
          destruct (Hc' Hac P HnP) as [HA HB].
          * intros k Hkd Hkp Hkn s Hs1. rewrite lookup_insert_ne in Hs1 by done.
            eapply HP2; [|done|done|done]. by apply elem_of_dom_2 in Hs1.
          * done.
          * done.
          * split; [done|]. intros s1 s' H1 H2.
            specialize (HB _ s' (lookup_insert _ _ _) H2) as [HB1 HB2].
            assert (E12 : t2 !! n = Some s1) by (rewrite Hk2; done).
            rewrite E12 in HB1. cbn [default] in HB1. split.
            -- intros x Hx. apply HB1, elem_of_union_l, Hx.
            -- intros b' x [->|Hb']%elem_of_cons Hbn Hx; [|by eapply HB2].
               destruct Hbn_or as [?|[Hcb _]]; [done|]. apply HB1, elem_of_union_r.
               apply elem_of_dom in Dn as [sb Hsb]. rewrite Hsb. cbn. by eapply Hcb. }
    destruct (L (ord ns) (<[n := ns]> t)) as (t' & E' & D1 & D2 & Hk & Hs & Hcm).
    - intros b Hb. by rewrite Hord, elem_of_elements in Hb.
    - by rewrite dom_insert_L.
    - rewrite dom_insert_L. clear -Hng Hd. set_solver.
    - intros k Hk. rewrite lookup_insert_ne; [done|]. intros ->. done.
    - intros Hst k s. destruct (decide (k = n)) as [->|Hne].
      + rewrite lookup_insert. intros [= <-]. split.
        * intros x (s & Hs & Hx). rewrite Hns in Hs. by injection Hs as <-.
        * intros x Hx. apply tc_once. by exists ns.
      + rewrite lookup_insert_ne by done. apply Hst.
    - rewrite dom_insert_L in D1. exists t'. split; [done|]. split; [clear -D1; set_solver|]. split; [done|].
      split; [clear -D1; set_solver|]. split; [done|]. split; [done|].
      intros Hac P HP HPn Hst k Hk1 Hk2.
      assert (HnP : n ∉ P) by (intros Hin; by apply (Hac n), HPn).
      destruct (Hcm Hac P HnP) as [HA HB].
      + intros j Hj1 Hj2 Hj3 s Hs1. rewrite lookup_insert_ne in Hs1 by done. eapply HP; [|done|done].
        by apply elem_of_dom_2 in Hs1.
      + done.
      + done.
      + destruct (decide (k = n)) as [->|Hne]; [|by apply HA].
        intros s Hsn x Hx. destruct (HB ns s (lookup_insert _ _ _) Hsn) as [HB1 HB2].
        assert (Hx' : x ∈ ns ∨ ∃ b, b ∈ ns ∧ b ≠ n ∧ tc (arc g) b x).
        { clear -Hx Hns. induction Hx as [a x (s & Hs & Hx)|a b x Hab Hbx IH].
          - rewrite Hns in Hs. injection Hs as <-. by left.
          - destruct Hab as (s & Hs & Hb). rewrite Hns in Hs. injection Hs as <-.
            destruct (decide (b = a)) as [->|Hne]; [by apply IH|right; eauto]. }
        destruct Hx' as [Hx'|(b & Hb & Hbn & Hbx)]; [by apply HB1|]. eapply HB2; [|done|done].
        rewrite Hord. by apply elem_of_elements.
  Qed.

  Lemma transitive_neighbors_spec fuel keys : (size g < fuel)%nat → (∀ k, k ∈ keys ↔ is_Some (g !! k)) →
    ∃ t, transitive_neighbors ord fuel keys g = Ok t ∧ dom t = dom g ∧ tsound t ∧
      ((∀ a, ¬ tc (edge g) a a) → ∀ k, tcomplete t k).
  Proof.
    intros Hf Hkeys. unfold transitive_neighbors.
    assert (L : ∀ l t, (∀ k, k ∈ l → is_Some (g !! k)) → dom t ⊆ dom g → tsound t →
      ((∀ a, ¬ tc (edge g) a a) → ∀ k, tcomplete t k) →
      ∃ t', foldM (λ t n, transitive_go ord g fuel n t) l t = Ok t' ∧ dom t ⊆ dom t' ∧ dom t' ⊆ dom g ∧
        (∀ k, k ∈ l → k ∈ dom t') ∧ tsound t' ∧ ((∀ a, ¬ tc (edge g) a a) → ∀ k, tcomplete t' k)).
    { induction l as [|n l IHl]; intros t Hl Hd Hs Hcm; cbn [foldM].
      { exists t. split; [done|]. split; [done|]. split; [done|]. split; [intros k Hk; by apply elem_of_nil in Hk|]. done. }
      destruct (transitive_go_spec fuel n t) as (t1 & E1 & D1 & D2 & Dn & _ & S1 & C1).
      - assert (size (dom g ∖ dom t) ≤ size (dom g))%nat by (apply subseteq_size; clear; set_solver).
        rewrite size_dom in H. lia.
      - apply Hl. left.
      - done.
      - rewrite E1. cbn [mbind res_bind]. destruct (IHl t1) as (t' & E' & D1' & D2' & Dl & S' & C').
        + intros k Hk. apply Hl. by right.
        + done.
        + auto.
        + intros Hac k s Hk. eapply (C1 Hac ∅); [auto|set_solver|done|by apply elem_of_dom_2 in Hk|set_solver|done].
        + exists t'. split; [done|]. split; [by etrans|]. split; [done|]. split; [|done].
          intros k [->|Hk]%elem_of_cons; auto. }
    destruct (L keys ∅) as (t & E & _ & D2 & Dl & S1 & C1).
    - intros k. by apply Hkeys.
    - rewrite dom_empty_L. set_solver.
    - intros k s Hk. done.
    - intros _ k s Hk. done.
    - exists t. split; [done|]. split; [|done]. apply set_eq. intros k. split; [apply D2|].
      intros Hk%elem_of_dom. apply Dl, Hkeys, Hk.
  Qed.
End transitive.
