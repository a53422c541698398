(** What times mean: the calendar by counting seconds, and the text of a time. *)
From Verif Require Import Base StrModel TimeModel.
Local Open Scope Z_scope.

(** The Gregorian calendar *)
Definition leap_year (y : Z) : Prop := (4 | y) /\ (~ (100 | y) \/ (400 | y)).
Inductive days_in : Z -> Z -> Z -> Prop :=
| long y m : In m [1; 3; 5; 7; 8; 10; 12] -> days_in y m 31
| short y m : In m [4; 6; 9; 11] -> days_in y m 30
| february y : ~ leap_year y -> days_in y 2 28
| february_leap y : leap_year y -> days_in y 2 29.
Definition is_date (y m d : Z) : Prop := exists n, days_in y m n /\ 1 <= d <= n.
Definition is_time (c : civil) : Prop :=
  is_date (year c) (month c) (day c) /\ 0 <= hour c <= 23 /\ 0 <= minute c <= 59 /\ 0 <= second c <= 59.
(** One second later *)
Inductive tick : civil -> civil -> Prop :=
| tick_second y m d h i s : is_date y m d -> 0 <= h <= 23 -> 0 <= i <= 59 -> 0 <= s < 59 -> tick (Civil y m d h i s) (Civil y m d h i (s + 1))
| tick_minute y m d h i : is_date y m d -> 0 <= h <= 23 -> 0 <= i < 59 -> tick (Civil y m d h i 59) (Civil y m d h (i + 1) 0)
| tick_hour y m d h : is_date y m d -> 0 <= h < 23 -> tick (Civil y m d h 59 59) (Civil y m d (h + 1) 0 0)
| tick_day y m d n : days_in y m n -> 1 <= d < n -> tick (Civil y m d 23 59 59) (Civil y m (d + 1) 0 0 0)
| tick_month y m n : days_in y m n -> m < 12 -> tick (Civil y m n 23 59 59) (Civil y (m + 1) 1 0 0 0)
| tick_year y : tick (Civil y 12 31 23 59 59) (Civil (y + 1) 1 1 0 0 0).
(** [since c n]: [c] is [n] seconds after the start of 1970 *)
Inductive since : civil -> Z -> Prop :=
| epoch : since (Civil 1970 1 1 0 0 0) 0
| later c d n : since c n -> tick c d -> since d (n + 1)
| earlier c d n : since d n -> tick c d -> since c (n - 1).
Definition offset (t : utime) : Z := match zone t with Some o => o | None => 0 end.

(** Digits and the number they mean *)
Definition number (s : str) (n : Z) : Prop :=
  s <> [] /\ Forall (fun c => 48 <= c <= 57) s /\ n = fold_left (fun v c => v * 10 + (c - 48)) s 0.

(** The clock part of a text, the time it means and its alignment *)
Inductive clock_text : option str -> Z -> Z -> Z -> align -> Prop :=
| no_clock : clock_text None 0 0 0 ADay
| to_minutes hs is_ h i : number hs h -> (length hs <= 2)%nat -> number is_ i -> length is_ = 2%nat ->
    clock_text (Some (hs ++ 58 :: is_)) h i 0 AMinute
| to_seconds hs is_ ss h i s : number hs h -> (length hs <= 2)%nat -> number is_ i -> length is_ = 2%nat -> number ss s -> length ss = 2%nat ->
    clock_text (Some (hs ++ 58 :: is_ ++ 58 :: ss)) h i s ASecond.

(** The text of a time, after the fields of the parser: [<date clock +zone repeats warning>] *)
Definition part (pre : str) (o : option str) : str := match o with Some s => pre ++ s | None => [] end.
Definition spelling (f : fields) : str :=
  [if f_active f then 60 else 91] ++ part [] (f_date f) ++ part [32] (f_clock f) ++ part [32; 43] (f_zone f)
  ++ concat (map (fun x => fst x ++ snd x) (f_repeats f)) ++ part [] (f_warn f) ++ [if f_active f then 62 else 93].
Definition digits (k : nat) (s : str) : Prop := length s = k /\ Forall (fun c => 48 <= c <= 57) s.
(** Date dddd-dd-dd, clock dd:dd or dd:dd:dd, zone of two digits, repeaters with a known sign, number and letter, warning with minus *)
Definition letter (c : Z) : Prop := In c [100; 109; 119; 121; 77; 104].
Definition is_duration (s : str) : Prop := exists n v c, s = n ++ [c] /\ number n v /\ letter c.
Definition orderly (f : fields) : Prop :=
  (exists y m d, f_date f = Some (y ++ 45 :: m ++ 45 :: d) /\ digits 4 y /\ digits 2 m /\ digits 2 d)
  /\ (forall k, f_clock f = Some k -> exists h i r, k = h ++ 58 :: i ++ r /\ digits 2 h /\ digits 2 i
        /\ (r = [] \/ exists s, r = 58 :: s /\ digits 2 s))
  /\ (forall z, f_zone f = Some z -> digits 2 z)
  /\ Forall (fun x => In (fst x) [[43]; [43; 43]; [46; 43]] /\ is_duration (snd x)) (f_repeats f)
  /\ (forall w, f_warn f = Some w -> exists s, w = 45 :: s /\ is_duration s).

(** Times the text can hold *)
Definition rounded (t : utime) : Prop :=
  match al t with
  | ADay => hour (civ t) = 0 /\ minute (civ t) = 0 /\ second (civ t) = 0
  | AMinute => second (civ t) = 0
  | ASecond => True
  | _ => False
  end.
Definition whole_hours (t : utime) : Prop :=
  match zone t with None => True | Some o => exists h, o = h * 3600 /\ 0 <= h <= 24 end.
Definition holds (t : utime) : Prop :=
  is_time (civ t) /\ 1000 <= year (civ t) <= 9999 /\ rounded t /\ whole_hours t
  /\ forall n, since (civ t) n -> -9223372036 <= n - offset t <= 9223372036.
Definition small (n : Z) : Prop := n <= 2147483647.
Definition writable (s : stamp) : Prop :=
  holds (at_time s)
  /\ Forall (fun r => 0 <= r_count r /\ small (r_count r) /\ exists m, r_mode r = Some m /\ m <> MNone) (repeats s)
  /\ (forall w, warn s = Some w -> r_count w < 0 /\ small (- r_count w)).
(** The mode of a warning is not part of the text *)
Definition unset (r : repeat_) : repeat_ := Repeat None (r_count r) (r_period r).
Definition kept (s : stamp) : stamp := Stamp (active s) (at_time s) (repeats s) (option_map unset (warn s)).
