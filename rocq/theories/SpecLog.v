(** * What a decision log should contain. *)
From Verif Require Import PolicyLog.

(** The values a dictionary of truth values has. *)
Notation situation := (gmap Z bool).
(** What an assignments object says about non-negative keys (variables are positive). *)
Definition current (a : aset) : situation := filter (λ kv, 0 ≤ kv.1) (a_data a).

(** The difference between two situations: exactly the variables whose value differs, with both values. *)
Definition difference_of (prev now : situation) (c : changelog) : Prop :=
  ∀ k old new, c !! k = Some (old, new) ↔ old = prev !! k ∧ new = now !! k ∧ old ≠ new.

(** Replaying a log from its first entry. *)
Definition replay_step (m : situation) (c : changelog) : situation :=
  merge (λ o ch, match ch with Some (_, new) => new | None => o end) m c.
Definition replay (log : list changelog) : situation := foldl replay_step ∅ log.

(** A sequence of situations [snaps] (the situations at the successive decisions) explains a log: entry number [i]
    is the difference between situation [i - 1] (nothing assigned, for the first) and situation [i], and replaying the first entries gives situation [i]. *)
Definition log_explained (snaps : list situation) (log : list changelog) : Prop :=
  length log = length snaps ∧
  ∀ i now, snaps !! i = Some now →
    (∃ c, log !! i = Some c ∧ difference_of (default ∅ (match i with O => None | S j => snaps !! j end)) now c) ∧
    replay (take (S i) log) = now.

(** The log of a run is right: it lists the answers of the policy, and its changes are explained by the situations
    at the moments the policy was asked. *)
Definition right_log (snaps : list situation) (answers : list Z) (suggestions : list Z) (log : list changelog) : Prop :=
  suggestions = answers ∧ length answers = length snaps ∧ log_explained snaps log.

(** To speak about the moments of a run, the logger is observed: next to the log, the situation passed to the policy and
    its answer are written down. *)
Definition observed {P} (pol : policy P) : policy (logged P * list situation * list Z) := λ st a cls,
  let '(l, snaps, answers) := st in
  '(v, l, a') ← logged_policy pol l a cls;
  Ok (v, (l, snaps ++ [current a], answers ++ [v]), a').
(** An observer that stops the run (with an AssertionError) as soon as [check] rejects what it has seen. *)
Definition guarded {P} (check : list situation → list Z → list Z → list changelog → bool) (pol : policy P)
  : policy (logged P * list situation * list Z) := λ st a cls,
  '(v, st, a') ← observed pol st a cls;
  let '(_, suggestions, log, snaps, answers) := st in
  if check snaps answers suggestions log then Ok (v, st, a') else Raise AssertionError.
