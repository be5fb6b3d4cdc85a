(** Time: what instants, durations and their texts stand for. *)
From Coq Require Import String.
From Verif Require Import Base S_Bigint M_Http M_Time.

(** Attoseconds since the origin of the clock. *)
Definition atto_i (i : instant) : Z := i_sec i * 10 ^ 18 + i_att i.
Definition atto_d (d : duration) : Z := d_sec d * 10 ^ 18 + d_att d.
(** As the constructors of the clocks make them: less than a second of attoseconds. *)
Definition proper_i (i : instant) : Prop := - 2 ^ 63 <= i_sec i < 2 ^ 63 /\ 0 <= i_att i < 10 ^ 18.
Definition proper_d (d : duration) : Prop := - 2 ^ 63 <= d_sec d < 2 ^ 63 /\ 0 <= d_att d < 10 ^ 18.
(** A number of attoseconds whose seconds fit 64 bits. *)
Definition representable (a : Z) : Prop := - 2 ^ 63 * 10 ^ 18 <= a < 2 ^ 63 * 10 ^ 18.

(** n written with exactly k decimal digits. *)
Definition fixed (k : nat) (n : Z) (t : list Z) : Prop := numeral 10 t n /\ List.length t = k.

(** v / 10^k written with a decimal point and exactly k digits after it. *)
Definition with_point (k : nat) (v : Z) (t : list Z) : Prop :=
  exists t1 t2, t = t1 ++ [46] ++ t2 /\ decimal (v / 10 ^ Z.of_nat k) t1 /\ fixed k (v mod 10 ^ Z.of_nat k) t2.

(** Different fields that a date and a time of day can have. *)
Definition calendar (t : datetime) : Prop :=
  0 <= t_year t < 10 ^ 4 /\ 1 <= t_month t <= 12 /\ 1 <= t_day t <= 31 /\ 0 <= t_hour t < 24 /\ 0 <= t_minute t < 60 /\ 0 <= t_second t <= 60 /\
  0 <= t_att t < 10 ^ 18 /\ 0 <= t_weekday t <= 6.
(** Whole minutes east of Greenwich. *)
Definition eastern (z : Z) : Prop := 0 <= z < 360000 /\ z mod 60 = 0.
Definition zone_text (z : Z) (t : list Z) : Prop :=
  z = 0 /\ t = [90] \/
  0 < z /\ exists h m th tm, fixed 2 h th /\ fixed 2 m tm /\ 0 <= m < 60 /\ z = h * 3600 + m * 60 /\ (m = 0 /\ t = [43] ++ th \/ 0 < m /\ t = [43] ++ th ++ [58] ++ tm).
Definition month_name (m : Z) (t : string) : Prop :=
  In (m, t) [(1, "Jan"); (2, "Feb"); (3, "Mar"); (4, "Apr"); (5, "May"); (6, "Jun"); (7, "Jul"); (8, "Aug"); (9, "Sep"); (10, "Oct"); (11, "Nov"); (12, "Dec")]%string.
Definition day_name (d : Z) (t : string) : Prop :=
  In (d, t) [(0, "Sun"); (1, "Mon"); (2, "Tue"); (3, "Wed"); (4, "Thu"); (5, "Fri"); (6, "Sat")]%string.
