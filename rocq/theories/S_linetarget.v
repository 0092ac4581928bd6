(** Specification of the line target (C132): three bars of every width 1, 2, ..., n on both sides of the centre, in both directions. *)
From Coq Require Import ZArith.
Open Scope Z_scope.

(** middle of the first bar of width w on the right, and on the left (n is the largest width, h the height of the bars) *)
Definition right_middle (h w : Z) : Z := h / 2 + 1 + 3 * w * (w - 1) + 6 * (w - 1).
Definition left_middle (h n w : Z) : Z := - ((h + 1) / 2) - (n + 1) / 2 - 3 * (n * (n + 1) - w * (w + 1)) - 6 * (n - w).
(** x lies on one of the three bars of width w, which are 2 w apart *)
Definition on_right_bar (h w x : Z) : Prop := exists k, 0 <= k <= 2 /\ let a := right_middle h w + 2 * w * k - (w - 1) / 2 in a <= x < a + w.
Definition on_left_bar (h n w x : Z) : Prop := exists k, 0 <= k <= 2 /\ let a := left_middle h n w - 2 * w * k - w / 2 in a <= x < a + w.
Definition on_bar (h n x : Z) : Prop := exists w, 1 <= w <= n /\ (on_right_bar h w x \/ on_left_bar h n w x).
(** n is the largest width for which the three bars on the right end at least 6 pixels before the border *)
Definition largest_width (size n : Z) : Prop :=
  1 <= n /\ right_middle (size / 16) n + 6 * n <= size / 2 - 6 /\ size / 2 - 6 < right_middle (size / 16) (n + 1) + 6 * (n + 1).
(** the pixel x to the right and y below the centre is dark: on a bar of one of the two directions *)
Definition dark (size n x y : Z) : Prop := let h := size / 16 in (on_bar h n x /\ 2 * Z.abs y <= h) \/ (on_bar h n y /\ 2 * Z.abs x <= h).
(** the bright disc: its diameter is the extent of the bars plus their height, and 1 percent *)
Definition extent (size n : Z) : Z := let h := size / 16 in (right_middle h n + 4 * n + n / 2) - (left_middle h n 1 - 4) + h.
Definition in_disc (size n x y : Z) : Prop := 40000 * (x * x + y * y) <= (101 * extent size n) * (101 * extent size n).
