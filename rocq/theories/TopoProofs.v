(** * toposort *)
From Verif Require Export Graph.

(** Edges that are not self-loops. *)
Definition edge (g : graph) (a b : Z) : Prop := ∃ s, g !! a = Some s ∧ b ∈ s ∧ a ≠ b.
Definition node (g : graph) (n : Z) : Prop := is_Some (g !! n) ∨ ∃ a, edge g a n.

(** A finite relation without dead ends has a cycle. *)
Lemma no_dead_end_cycle (R : Z → Z → Prop) (X : gset Z) :
  X ≠ ∅ → (∀ x, x ∈ X → ∃ y, y ∈ X ∧ R x y) → ∃ x, tc R x x.
Proof.
  intros Hne H. apply set_choose_L in Hne as [x0 Hx0].
  assert (G : ∀ n (V : gset Z) x, (size (X ∖ V) < n)%nat → x ∈ X → (∀ v, v ∈ V → tc R v x) → ∃ x, tc R x x).
  { induction n as [|n IH]; intros V x Hn Hx HV; [lia|].
    destruct (decide (x ∈ V)) as [Hin|Hin]; [eauto|].
    destruct (H x Hx) as (y & Hy & Hr). apply (IH ({[x]} ∪ V) y); [|done|].
    - assert (size (X ∖ ({[x]} ∪ V)) < size (X ∖ V))%nat; [|lia]. apply subset_size. clear -Hx Hin. split; [set_solver|].
      intros Hs. assert (Hc : x ∈ X ∖ ({[x]} ∪ V)) by (apply Hs; set_solver). set_solver.
    - intros v [->%elem_of_singleton|Hv]%elem_of_union; [by apply tc_once|].
      eapply tc_r; eauto. }
  eapply (G (S (size (X ∖ ∅))) ∅ x0); [lia|done|set_solver].
Qed.

(** Prepared data: every neighbour is a node and there are no self-loops. *)
Definition prepared (d : graph) : Prop :=
  ∀ a s b, d !! a = Some s → b ∈ s → is_Some (d !! b) ∧ b ≠ a.

Lemma elem_of_all_edges d b : b ∈ all_edges d ↔ ∃ a s, d !! a = Some s ∧ b ∈ s.
Proof.
  unfold all_edges. rewrite elem_of_union_list. split.
  - intros (s & Hs & Hb). apply elem_of_list_fmap in Hs as ([a s'] & -> & Hin).
    apply elem_of_map_to_list in Hin. eauto.
  - intros (a & s & Hs & Hb). exists s. split; [|done]. apply elem_of_list_fmap. exists (a, s).
    split; [done|]. by apply elem_of_map_to_list.
Qed.

Lemma toposort_init_spec g :
  (∀ a, is_Some (toposort_init g !! a) ↔ node g a) ∧
  (∀ a s, toposort_init g !! a = Some s → ∀ b, b ∈ s ↔ edge g a b).
Proof.
  unfold toposort_init. cbv zeta. set (d := map_imap _ g).
  assert (Hd : ∀ k, d !! k = (λ s : gset Z, s ∖ {[k]}) <$> g !! k).
  { intros k. unfold d. rewrite map_lookup_imap. by destruct (g !! k). }
  set (extra := all_edges d ∖ dom d).
  assert (Hiff : ∀ a, g !! a = None → a ∈ extra ↔ ∃ b, edge g b a).
  { intros a E. unfold extra. rewrite elem_of_difference, not_elem_of_dom, Hd, E, elem_of_all_edges. split.
    - intros [(b & s & Hs & Ha) _]. rewrite Hd in Hs. apply fmap_Some in Hs as (s' & Hs & ->).
      exists b, s'. set_solver.
    - intros (b & s & Hs & Ha & Hne). split; [|done]. exists b, (s ∖ {[b]}). rewrite Hd, Hs. set_solver. }
  assert (L : ∀ a, (d ∪ gset_to_gmap ∅ extra) !! a = match g !! a with
     | Some s => Some (s ∖ {[a]}) | None => gset_to_gmap ∅ extra !! a end).
  { intros a. rewrite lookup_union, Hd. destruct (g !! a) as [s|]; cbn [fmap option_fmap option_map].
    - by destruct (gset_to_gmap ∅ extra !! a).
    - by destruct (gset_to_gmap ∅ extra !! a). }
  split.
  - intros a. rewrite L. unfold node. destruct (g !! a) as [s|] eqn:E.
    + split; [intros _; left; eauto|eauto].
    + rewrite lookup_gset_to_gmap. unfold is_Some.
      split.
      * intros [x Hx]. right. apply Hiff; [done|].
        destruct (decide (a ∈ extra)); [done|]. by rewrite option_guard_False in Hx.
      * intros [[? ?]|H]; [done|]. apply Hiff in H; [|done]. exists ∅. by rewrite option_guard_True.
  - intros a s Hs b. rewrite L in Hs. unfold edge. destruct (g !! a) as [s'|] eqn:E.
    + injection Hs as <-. set_solver.
    + apply lookup_gset_to_gmap_Some in Hs as [_ <-]. set_solver.
Qed.
Lemma toposort_init_prepared g : prepared (toposort_init g).
Proof.
  destruct (toposort_init_spec g) as [H1 H2]. intros a s b Hs Hb. apply (H2 a s Hs) in Hb.
  split; [apply H1; right; eauto|]. destruct Hb as (? & _ & _ & ?). done.
Qed.

(** One round. *)
Definition roots (d : graph) : gset Z := dom (filter (λ kv, kv.2 = ∅) d).
Lemma elem_of_roots d a : a ∈ roots d ↔ d !! a = Some ∅.
Proof.
  unfold roots. rewrite elem_of_dom. unfold is_Some. split.
  - intros [s [Hs Hf]%map_filter_lookup_Some]. cbn in Hf. by subst.
  - intros H. exists ∅. by apply map_filter_lookup_Some.
Qed.
Definition reduce (d : graph) : graph := (λ dep, dep ∖ roots d) <$> filter (λ kv, kv.1 ∉ roots d) d.
Lemma reduce_lookup d a s' : reduce d !! a = Some s' ↔ ∃ s, d !! a = Some s ∧ s ≠ ∅ ∧ s' = s ∖ roots d.
Proof.
  unfold reduce. rewrite lookup_fmap, fmap_Some. split.
  - intros (s & [Hs Hr]%map_filter_lookup_Some & ->). exists s. split; [done|]. split; [|done].
    intros ->. by apply Hr, elem_of_roots.
  - intros (s & Hs & Hne & ->). exists s. split; [|done]. apply map_filter_lookup_Some. split; [done|].
    cbn. rewrite elem_of_roots. congruence.
Qed.
Lemma reduce_prepared d : prepared d → prepared (reduce d).
Proof.
  intros Hp a s' b Ha Hb. apply reduce_lookup in Ha as (s & Hs & Hne & ->).
  apply elem_of_difference in Hb as [Hb Hr]. destruct (Hp a s b Hs Hb) as [[t Ht] Hab].
  split; [|done]. exists (t ∖ roots d). apply reduce_lookup. exists t. split; [done|]. split; [|done].
  intros ->. by apply Hr, elem_of_roots.
Qed.
Lemma reduce_size d : roots d ≠ ∅ → (size (reduce d) < size d)%nat.
Proof.
  intros Hne. apply set_choose_L in Hne as [a Ha]. apply elem_of_roots in Ha.
  rewrite <-!size_dom. apply subset_size. split.
  - intros b [s (s' & Hs & _)%reduce_lookup]%elem_of_dom. apply elem_of_dom. eauto.
  - intros Hsub. assert (Hin : a ∈ dom (reduce d)) by (apply Hsub, elem_of_dom; eauto).
    apply elem_of_dom in Hin as [s (s' & Hs & Hn & _)%reduce_lookup]. congruence.
Qed.

(** What the groups of a completely sorted graph satisfy. *)
Record layered (d : graph) (gs : list (gset Z)) : Prop := {
  ly_nonempty : ∀ k G, gs !! k = Some G → G ≠ ∅;
  ly_cover : ∀ a, is_Some (d !! a) ↔ ∃ k G, gs !! k = Some G ∧ a ∈ G;
  ly_unique : ∀ a k k' G G', gs !! k = Some G → gs !! k' = Some G' → a ∈ G → a ∈ G' → k = k';
  ly_earlier : ∀ a s b k G, d !! a = Some s → b ∈ s → gs !! k = Some G → a ∈ G →
     ∃ k' G', (k' < k)%nat ∧ gs !! k' = Some G' ∧ b ∈ G';
  ly_earliest : ∀ a k G, gs !! S k = Some G → a ∈ G →
     ∃ s b G', d !! a = Some s ∧ b ∈ s ∧ gs !! k = Some G' ∧ b ∈ G' }.

Lemma layered_cons d gs : prepared d → roots d ≠ ∅ → layered (reduce d) gs → layered d (roots d :: gs).
Proof.
  intros Hp Hne [L1 L2 L3 L4 L5].
  assert (Hin : ∀ a k G, gs !! k = Some G → a ∈ G → ∃ s, d !! a = Some s ∧ s ≠ ∅ ∧ reduce d !! a = Some (s ∖ roots d)).
  { intros a k G Hk Ha. assert (Hs : is_Some (reduce d !! a)) by (apply L2; eauto).
    destruct Hs as [s' Hs]. assert (Hs' := Hs). apply reduce_lookup in Hs' as (s & H1 & H2 & ->). eauto. }
  assert (Hr : ∀ a k G, gs !! k = Some G → a ∈ G → a ∉ roots d).
  { intros a k G Hk Ha Hroot. destruct (Hin a k G Hk Ha) as (s & Hs & Hn & _).
    apply elem_of_roots in Hroot. congruence. }
  split.
  - intros [|k] G; cbn; [by intros [= <-]|]. apply L1.
  - intros a. split.
    + intros [s Hs]. destruct (decide (s = ∅)) as [->|Hn].
      * exists 0%nat, (roots d). split; [done|]. by apply elem_of_roots.
      * assert (Hs' : is_Some (reduce d !! a)).
        { exists (s ∖ roots d). apply reduce_lookup. eauto. }
        apply L2 in Hs' as (k & G & Hk & Ha). exists (S k), G. done.
    + intros ([|k] & G & Hk & Ha); cbn in Hk.
      * injection Hk as <-. apply elem_of_roots in Ha. eauto.
      * destruct (Hin a k G Hk Ha) as (s & Hs & _). eauto.
  - intros a [|k] [|k'] G G' Hk Hk' Ha Ha'; cbn in Hk, Hk'; [done|..].
    + injection Hk as <-. exfalso. by eapply Hr.
    + injection Hk' as <-. exfalso. by eapply Hr.
    + f_equal. by eapply L3.
  - intros a s b [|k] G Hs Hb Hk Ha; cbn in Hk.
    + injection Hk as <-. apply elem_of_roots in Ha. rewrite Hs in Ha. injection Ha as ->. set_solver.
    + destruct (decide (b ∈ roots d)) as [Hrb|Hrb].
      * exists 0%nat, (roots d). split; [lia|done].
      * destruct (Hin a k G Hk Ha) as (s' & Hs' & _ & Hred). rewrite Hs in Hs'. injection Hs' as <-.
        destruct (L4 a _ b k G Hred) as (k' & G' & Hlt & Hk' & Hb'); [set_solver|done|done|].
        exists (S k'), G'. split; [lia|done].
  - intros a k G Hk Ha. cbn in Hk. destruct (Hin a k G Hk Ha) as (s & Hs & Hn & Hred).
    destruct k as [|k].
    + (* in the first group of the reduced graph: all its neighbours were roots *)
      apply set_choose_L in Hn as [b Hb]. exists s, b, (roots d). split; [done|]. split; [done|]. split; [done|].
      destruct (decide (b ∈ roots d)) as [|Hrb]; [done|].
      destruct (L4 a _ b 0%nat G Hred) as (k' & _ & Hlt & _); [set_solver|done|done|lia].
    + destruct (L5 a k G Hk Ha) as (s' & b & G' & Hs' & Hb & Hk' & Hb').
      rewrite Hred in Hs'. injection Hs' as <-. exists s, b, G'. split; [done|]. split; [set_solver|done].
Qed.

Lemma toposort_loop_spec fuel : ∀ d gs rest, (size d < fuel)%nat → prepared d →
  toposort_loop fuel d = (gs, rest) →
  (rest = ∅ ∧ layered d gs) ∨
  (rest ≠ ∅ ∧ (∀ a s, rest !! a = Some s → s ≠ ∅ ∧ (∃ s0, d !! a = Some s0 ∧ s ⊆ s0) ∧ ∀ b, b ∈ s → is_Some (rest !! b))).
Proof.
  induction fuel as [|fuel IH]; intros d gs rest Hf Hp; [lia|]. cbn [toposort_loop].
  fold (roots d). cbv zeta. case_decide as Hr.
  - intros [= <- <-]. destruct (decide (d = ∅)) as [->|Hd]; [left|right].
    + split; [done|]. split.
      * intros k G Hk. done.
      * intros a. rewrite lookup_empty. split; [intros [? ?]; done|]. intros (k & G & Hk & _). done.
      * intros a k k' G G' Hk. done.
      * intros a s b k G Hs. done.
      * intros a k G Hk. done.
    + split; [done|]. intros a s Hs. split; [|split; [eauto|]].
      * intros ->. assert (Ha : a ∈ roots d) by (by apply elem_of_roots). rewrite Hr in Ha. set_solver.
      * intros b Hb. by eapply Hp.
  - fold (reduce d). destruct (toposort_loop fuel (reduce d)) as [gs' rest'] eqn:E. intros [= <- <-].
    apply IH in E; [|pose proof (reduce_size d Hr); lia|by apply reduce_prepared].
    destruct E as [[-> HL]|[Hne HR]]; [left|right].
    + split; [done|]. by apply layered_cons.
    + split; [done|]. intros a s Hs. destruct (HR a s Hs) as (H1 & (s0 & H2 & H3) & H4).
      split; [done|]. split; [|done]. apply reduce_lookup in H2 as (s1 & H5 & _ & ->).
      exists s1. split; [done|]. set_solver.
Qed.

Lemma layered_acyclic d gs (R : Z → Z → Prop) : layered d gs →
  (∀ a b, R a b → ∃ s, d !! a = Some s ∧ b ∈ s) → ∀ a, ¬ tc R a a.
Proof.
  intros L HR. assert (G : ∀ a b, tc R a b → ∀ k G, gs !! k = Some G → a ∈ G →
    ∃ k' G', (k' < k)%nat ∧ gs !! k' = Some G' ∧ b ∈ G').
  { intros a b Ht. induction Ht as [a b Hr|a b c Hr Ht IH]; intros k G Hk Ha.
    - destruct (HR a b Hr) as (s & Hs & Hb). by eapply (ly_earlier d gs L).
    - destruct (HR a b Hr) as (s & Hs & Hb).
      destruct (ly_earlier d gs L a s b k G Hs Hb Hk Ha) as (k1 & G1 & Hlt & Hk1 & Hb1).
      destruct (IH k1 G1 Hk1 Hb1) as (k2 & G2 & ? & ? & ?). exists k2, G2. split; [lia|done]. }
  intros a Ht. assert (Hs : is_Some (d !! a)).
  { inversion Ht as [? ? Hr|? b ? Hr _]; subst.
    all: destruct (HR _ _ Hr) as (s & Hs & _); eauto. }
  apply (ly_cover d gs L) in Hs as (k & Gr & Hk & Ha).
  destruct (G a a Ht k Gr Hk Ha) as (k' & G' & Hlt & Hk' & Ha').
  assert (k' = k) by (by eapply (ly_unique d gs L)). lia.
Qed.

(** The two outcomes. *)
Lemma toposort_spec g :
  (∃ gs, toposort g = Ok gs ∧ layered (toposort_init g) gs ∧ ∀ a, ¬ tc (edge g) a a) ∨
  (toposort g = Raise ValueError ∧ ∃ a, tc (edge g) a a).
Proof.
  unfold toposort, toposort_raw. cbv zeta.
  destruct (toposort_init_spec g) as [H1 H2]. assert (Hp := toposort_init_prepared g).
  destruct (toposort_loop _ _) as [gs rest] eqn:E.
  apply toposort_loop_spec in E; [|lia|done]. destruct E as [[-> HL]|[Hne HR]]; [left|right].
  - exists gs. rewrite decide_True by done. split; [done|]. split; [done|].
    apply (layered_acyclic _ _ _ HL). intros a b He.
    assert (Hs : is_Some (toposort_init g !! a)).
    { apply H1. left. destruct He as (s & Hs & _). eauto. }
    destruct Hs as [s Hs]. exists s. split; [done|]. by apply (H2 a s Hs).
  - rewrite decide_False by done. split; [done|].
    apply (no_dead_end_cycle (edge g) (dom rest)).
    + by rewrite dom_empty_iff_L.
    + intros a [s Hs]%elem_of_dom. destruct (HR a s Hs) as (Hn & (s0 & Hs0 & Hsub) & Hb).
      apply set_choose_L in Hn as [b Hin]. exists b. split; [apply elem_of_dom; auto|].
      apply (H2 a s0 Hs0). set_solver.
Qed.
