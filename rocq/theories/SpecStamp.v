(** What the text of a duration means and what adding durations to a stamp gives. *)
From Verif Require Import Bytes ModelAbe SpecFmt.

(** Microseconds *)
Definition sec : N := 1000000. Definition min : N := 60 * sec. Definition hour : N := 60 * min. Definition day : N := 24 * hour.
Definition units : list (N * N) :=
  combine (str "YMWDhmslu") [365 * day + 6 * hour; 30 * day; 7 * day; day; hour; min; sec; 1000; 1].
(** Counts below 2^32, each with a unit, the units in the order above, none twice. *)
Inductive duration : list (N * N) -> bytes -> N -> Prop :=
| dur_end us : duration us [] 0
| dur_unit pre u v rest n c t d : numeral 10 n c -> c < 2 ^ 32 -> duration rest t d -> duration (pre ++ (u, v) :: rest) (n ++ u :: t) (c * v + d).

Definition last_stamp : N := 2 ^ 64 - 1.
(** The arguments of [us], [now], [epoch] and [us++]: [+x] and [-x] must stay in range, [++x] and
    [--x] stop at the ends. *)
Inductive moves : N -> list bytes -> N -> Prop :=
| mv_done s : moves s [] s
| mv_skip s args r : moves s args r -> moves s ([] :: args) r
| mv_add s t d args r : hd 0 t <> 43 -> duration units t d -> s + d <= last_stamp -> moves (s + d) args r -> moves s ((43 :: t) :: args) r
| mv_sat_add s t d args r : duration units t d -> moves (N.min (s + d) last_stamp) args r -> moves s ((43 :: 43 :: t) :: args) r
| mv_sub s t d args r : hd 0 t <> 45 -> duration units t d -> d <= s -> moves (s - d) args r -> moves s ((45 :: t) :: args) r
| mv_sat_sub s t d args r : duration units t d -> moves (s - N.min s d) args r -> moves s ((45 :: 45 :: t) :: args) r.
(** No checked step has a duration above the last stamp. *)
Definition short_steps (args : list bytes) : Prop :=
  Forall (fun a => forall t d, (a = 43 :: t /\ hd 0 t <> 43) \/ (a = 45 :: t /\ hd 0 t <> 45) -> duration units t d -> d <= last_stamp) args.
(** Stamps as text; [now] is what relative ones refer to. *)
Inductive stamp_text (now : option N) : bytes -> N -> Prop :=
| st_last : stamp_text now (str "++") last_stamp
| st_first : stamp_text now (str "--") 0
| st_number t n : number 10 t n -> n <= last_stamp -> stamp_text now t n
| st_now n : now = Some n -> stamp_text now (str "now") n
| st_plus n t d : now = Some n -> duration units t d -> stamp_text now (43 :: t) (N.min (n + d) last_stamp)
| st_minus n t d : now = Some n -> duration units t d -> stamp_text now (45 :: t) (n - N.min n d).
(** A count and a unit for every one of the units, each after a space. *)
Inductive fields : list (N * N) -> bytes -> N -> Prop :=
| f_end : fields [] [] 0
| f_unit u v us t c r n : number 10 t c -> fields us r n -> fields ((u, v) :: us) (32 :: t ++ u :: r) (c * v + n).
(** The time from [now] to [other] in at most [k] consecutive units, from the largest that fits, rounded down; with a sign. *)
Definition delta_text (now other : N) (k : nat) (t : bytes) : Prop :=
  let d := if now <? other then other - now else now - other in
  exists pre us post r n, t = (if now <? other then 43 else 45) :: r /\ units = pre ++ us ++ post /\ (forall x, In x pre -> d < snd x) /\
    (d = 0 /\ r = str "0u" \/
     us <> [] /\ (List.length us <= k)%nat /\ (post <> [] -> List.length us = k) /\ snd (hd (0, 0) us) <= d /\ fields us r n /\ n <= d < n + snd (last us (0, 0))).
