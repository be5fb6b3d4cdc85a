(** base/src/time.act: clocks, instants, durations and their texts.

    An int is 64 bits and wraps; [/] and [%] are C's and here always by a positive constant, where
    base/builtin/int.h:17-18 never raises (M_Int.v).  10**18 and the like are constants (C18).  Reading the
    clocks and localtime/gmtime are calls of the system and not modelled. *)
From Coq Require Import String Ascii.
From Verif Require Import Base M_Int M_Bigint M_Http.

Definition add_ (a b : Z) : Z := i_add TInt a b.
Definition sub_ (a b : Z) : Z := i_sub TInt a b.
Definition mul_ (a b : Z) : Z := i_mul TInt a b.
Definition div_ (a b : Z) : Z := norm TInt (prom TInt (Z.quot a b)).
Definition mod_ (a b : Z) : Z := norm TInt (prom TInt (Z.rem a b)).
Definition ATTO : Z := 10 ^ 18.

(** base/src/time.act:136-218 Clock; 220-236 RealtimeClock, 238-254 MonotonicClock: which of the two it is. *)
Record clock := Clk { k_mono : bool; k_standard : list Z; k_incarnation : Z; k_sync : Z; k_offset : Z; k_error : Z }.
Definition comparable (a b : clock) : bool :=
  if k_mono a then if k_mono b then k_incarnation a =? k_incarnation b else false
  else if k_mono b then false else M_Bytes.bytes_eq (k_standard a) (k_standard b) && (k_sync a =? k_sync b).

(** base/src/time.act:406-431 Instant, 519-534 Duration. *)
Record instant := Inst { i_sec : Z; i_att : Z; i_clk : clock }.
Record duration := Dur { d_sec : Z; d_att : Z; d_clk : clock }.

(** :461-463 add. *)
Definition inst_add (i : instant) (d : duration) : instant :=
  let s := add_ (i_att i) (d_att d) in
  Inst (add_ (add_ (i_sec i) (d_sec d)) (div_ s ATTO)) (mod_ s ATTO) (i_clk i).
(** :465-471 sub. *)
Definition inst_sub (i : instant) (d : duration) : instant :=
  let a := sub_ (i_att i) (d_att d) in
  let s := sub_ (i_sec i) (d_sec d) in
  if a <? 0 then Inst (sub_ s 1) (add_ a ATTO) (i_clk i) else Inst s a (i_clk i).
(** :473-485 since. *)
Definition inst_since (i j : instant) : duration :=
  let a := sub_ (i_att i) (i_att j) in
  let s := sub_ (i_sec i) (i_sec j) in
  if a <? 0 then Dur (sub_ s 1) (add_ a ATTO) (i_clk i) else Dur s a (i_clk i).
(** :487-488 comparable. *)
Definition inst_comparable (i j : instant) : bool := comparable (i_clk i) (i_clk j).
(** :490-508 unix_s, unix_ms, unix_us, unix_ns. *)
Definition unix_s (i : instant) : Z := i_sec i.
Definition unix_ms (i : instant) : Z := add_ (mul_ (i_sec i) 1000) (div_ (i_att i) (10 ^ 15)).
Definition unix_us (i : instant) : Z := add_ (mul_ (i_sec i) 1000000) (div_ (i_att i) (10 ^ 12)).
Definition unix_ns (i : instant) : Z := add_ (mul_ (i_sec i) 1000000000) (div_ (i_att i) (10 ^ 9)).
(** :510-515 the order; base/src/__builtin__.act:465-467, 479-484 the rest of it. *)
Definition inst_eq (i j : instant) : bool := (i_sec i =? i_sec j) && (i_att i =? i_att j).
Definition inst_lt (i j : instant) : bool := (i_sec i <? i_sec j) || ((i_sec i =? i_sec j) && (i_att i <? i_att j)).
Definition inst_le (i j : instant) : bool := inst_lt i j || inst_eq i j.
Definition inst_gt (i j : instant) : bool := inst_lt j i.
Definition inst_ge (i j : instant) : bool := inst_le j i.
Definition inst_ne (i j : instant) : bool := negb (inst_eq i j).

(** :543-550 from_parts. *)
Definition from_parts (week day hour minute second att : Z) (c : clock) : duration :=
  Dur (add_ (add_ (add_ (add_ (mul_ (mul_ (mul_ (mul_ week 7) 24) 60) 60) (mul_ (mul_ (mul_ day 24) 60) 60)) (mul_ (mul_ hour 60) 60)) (mul_ minute 60)) second) att c.

(** :693-699 Stopwatch.elapsed: [mono], [real] are the readings now, [start_*] those at the start. *)
Definition elapsed (start_mono start_real mono real : instant) : duration :=
  if inst_comparable mono start_mono then inst_since mono start_mono else inst_since real start_real.
(** :728-734 PrecisionStopwatch.elapsed; Exception is here RuntimeError. *)
Definition precise_elapsed (start mono : instant) : res duration :=
  if negb (inst_comparable mono start) then Exn RuntimeError else Ok (inst_since mono start).

(** ** Texts.  "%ld" and "%0<w>ld" of vsnprintf (base/builtin/str.c:4053-4077 $FORMAT). *)
Definition dec (n : Z) : list Z := if n <? 0 then 45 :: sprintf_lu (- n) else sprintf_lu n.
Definition pad (w : nat) (n : Z) : list Z :=
  let d := sprintf_lu (Z.abs n) in
  let s := if n <? 0 then [45] else [] in
  s ++ repeat 48 (w - List.length s - List.length d) ++ d.
(** "%<w>ld": blanks in front. *)
Definition blank_pad (w : nat) (n : Z) : list Z := let d := dec n in repeat 32 (w - List.length d) ++ d.

(** :433-434 __str__, 439-452 str_ms, str_us, str_ns of Instant; 539-540 __repr__, 571-584 of Duration:
    the same texts. *)
Definition str_frac (sec att : Z) (digits : nat) (unit : Z) : list Z := dec sec ++ [46] ++ pad digits (div_ att unit).
Definition str_att (sec att : Z) : list Z := dec sec ++ [46] ++ pad 18 att.
Definition str_ms (sec att : Z) : list Z := str_frac sec att 3 (10 ^ 15).
Definition str_us (sec att : Z) : list Z := str_frac sec att 6 (10 ^ 12).
Definition str_ns (sec att : Z) : list Z := str_frac sec att 9 (10 ^ 9).
(** :552-569 str_human. *)
Definition str_human (d : duration) : list Z :=
  let s := d_sec d in
  let weeks := div_ s 604800 in
  let days := div_ (mod_ s 604800) 86400 in
  let hours := div_ (mod_ s 86400) 3600 in
  let minutes := div_ (mod_ s 3600) 60 in
  let seconds := mod_ s 60 in
  dec weeks ++ lit "w " ++ dec days ++ lit "d " ++ dec hours ++ lit "h " ++ dec minutes ++ lit "m " ++ dec seconds ++ lit "s " ++
  dec (div_ (d_att d) (10 ^ 9)) ++ lit "ns".

(** :271-285 Timezone.str_offset. *)
Definition str_offset (off : Z) : list Z :=
  if off =? 0 then lit "Z"
  else (if 0 <? off then [43] else [45]) ++ pad 2 (div_ off 3600) ++
       (if 0 <? mod_ off 3600 then [58] ++ pad 2 (div_ (mod_ off 3600) 60) else []).

(** :288-334 DateTime (the fields that are read). *)
Record datetime := DT { t_zone : option Z; t_year : Z; t_month : Z; t_day : Z; t_hour : Z; t_minute : Z; t_second : Z; t_att : Z; t_weekday : Z }.
(** :339-351 str_iso8601_ns. *)
Definition str_iso8601 (t : datetime) : list Z :=
  pad 4 (t_year t) ++ [45] ++ pad 2 (t_month t) ++ [45] ++ pad 2 (t_day t) ++ [84] ++ pad 2 (t_hour t) ++ [58] ++ pad 2 (t_minute t) ++ [58] ++ pad 2 (t_second t) ++
  [46] ++ pad 9 (div_ (t_att t) (10 ^ 9)) ++ match t_zone t with Some off => str_offset off | None => [] end.

(** :38-87 the names. *)
Definition MONTHS : list string := ["January"; "February"; "March"; "April"; "May"; "June"; "July"; "August"; "September"; "October"; "November"; "December"]%string.
Definition MNTHS : list string := ["Jan"; "Feb"; "Mar"; "Apr"; "May"; "Jun"; "Jul"; "Aug"; "Sep"; "Oct"; "Nov"; "Dec"]%string.
Definition WEEKDAYS : list string := ["Sunday"; "Monday"; "Tuesday"; "Wednesday"; "Thursday"; "Friday"; "Saturday"]%string.
Definition WKDAYS : list string := ["Sun"; "Mon"; "Tue"; "Wed"; "Thu"; "Fri"; "Sat"]%string.
(** Indexing a list (C01). *)
Definition name_at (l : list string) (i : Z) : res (list Z) :=
  let n := Z.of_nat (List.length l) in
  let j := if i <? 0 then i + n else i in
  if (0 <=? j) && (j <? n) then Ok (lit (nth (Z.to_nat j) l EmptyString)) else Exn IndexError.

(** :392-397 str_rfc1123. *)
Definition str_rfc1123 (t : datetime) : res (list Z) :=
  do wd <- name_at WKDAYS (t_weekday t);
  do mn <- name_at MNTHS (sub_ (t_month t) 1);
  Ok (wd ++ lit ", " ++ pad 2 (t_day t) ++ [32] ++ mn ++ [32] ++ pad 4 (t_year t) ++ [32] ++ pad 2 (t_hour t) ++ [58] ++ pad 2 (t_minute t) ++ [58] ++ pad 2 (t_second t) ++ lit " GMT").
(** :399-402 str_asctime. *)
Definition str_asctime (t : datetime) : res (list Z) :=
  do wd <- name_at WEEKDAYS (t_weekday t);
  do mn <- name_at MONTHS (t_month t);
  Ok (firstn 3 wd ++ [32] ++ firstn 3 mn ++ [32] ++ blank_pad 2 (t_day t) ++ [32] ++ pad 2 (t_hour t) ++ [58] ++ pad 2 (t_minute t) ++ [58] ++ pad 2 (t_second t) ++ [32] ++ pad 4 (t_year t)).
