(** Tick arithmetic of Clock (/repo/src/Time/Clock.h), for [tick_t] a 64-bit unsigned integer (Clock.h:38-39).  Not modelled: reading
    the system's counters and calendar (Clock.cpp), the floating-point conversions, the build where a tick is a double. *)
From Coq Require Import ZArith.
Open Scope Z_scope.

(** Clock.h:91-94 [TicksInBetween]: the subtraction wraps around. *)
Definition TicksInBetween (newTick oldTick : Z) : Z := (newTick - oldTick) mod 2 ^ 64.
(** Clock.h:97-104 [IsNewer]: [(tick_t)(-1) >> 1] is the largest 64-bit value halved, rounding down. *)
Definition IsNewer (newTick oldTick : Z) : bool := TicksInBetween newTick oldTick <? Z.shiftr (2 ^ 64 - 1) 1.
(** Clock.h:88 [TicksPerMillisecond]. *)
Definition TicksPerMillisecond (ticksPerSec : Z) : Z := ticksPerSec / 1000.
