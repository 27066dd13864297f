(** * The example problem (simplesat/examples/van_der_waerden.py). *)
From Verif Require Export Base.

(** [range(a, b)] *)
Definition zrange (a b : Z) : list Z := (λ k, a + Z.of_nat k) <$> seq 0 (Z.to_nat (b - a)).
(** 10-17: _van_der_waerden_helper.  Python's [//] rounds down, as Coq's division does; the case j = 1 (division by
    zero) is not modelled. *)
Definition waerden_helper (j n sign : Z) : list (list Z) :=
  let max_d := (n - 1) / (j - 1) + 1 in
  d ← zrange 1 (max_d + 1);
  i ← zrange 1 (n - (j - 1) * d + 1);
  [(λ p, sign * (i + p * d)) <$> zrange 0 j].
(** 20-26: van_der_waerden *)
Definition van_der_waerden (j k n : Z) : list (list Z) := waerden_helper j n 1 ++ waerden_helper k n (-1).
