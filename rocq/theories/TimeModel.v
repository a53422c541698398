(** Times: hstd/stdlib/Time.{hpp,cpp}, reading them in haxorg/sem/SemConvert.cpp:161-222 and 1028-1130 and writing them in
    haxorg/sem/SemOrgFormat.cpp:912-958.
    The library cctz is not part of the repository. What is used of it is modelled after its documentation and its
    release 2.4: civil times, parse, format, fixed zones. Zones are fixed offsets in seconds, the only ones the reader makes.
    The time points of std::chrono::system_clock count nanoseconds in 64 bits, as on Linux; overflow is UB. *)
From Coq Require Import String.
From Verif Require Import Base StrModel.
From Verif Require AttrModel.
Local Open Scope Z_scope.
Notation lit := AttrModel.lit (only parsing).

(** cctz::civil_second *)
Record civil := Civil { year : Z; month : Z; day : Z; hour : Z; minute : Z; second : Z }.
(** UserTime::Alignment, Time.hpp:43 *)
Inductive align := AYear | AMonth | ADay | AHour | AMinute | ASecond.
(** UserTime, Time.hpp:42-48 *)
Record utime := Utime { civ : civil; zone : option Z; al : align }.
(** UserTimeBreakdown, Time.hpp:16-23; the name of a fixed zone is its offset *)
Record breakdown := Breakdown { b_year : option Z; b_month : option Z; b_day : option Z;
                                b_hour : option Z; b_minute : option Z; b_second : option Z; b_zone : option Z }.

(** UserTime::getBreakdown, Time.cpp:6-38: the switch falls through *)
Definition get_breakdown (t : utime) : breakdown :=
  let n := match al t with ASecond => 5 | AMinute => 4 | AHour => 3 | ADay => 2 | AMonth => 1 | AYear => 0 end in
  let upto k v := if k <=? n then Some v else None in
  Breakdown (upto 0 (year (civ t))) (upto 1 (month (civ t))) (upto 2 (day (civ t)))
            (upto 3 (hour (civ t))) (upto 4 (minute (civ t))) (upto 5 (second (civ t))) (zone t).
Definition oeqb (a b : option Z) : bool :=
  match a, b with Some x, Some y => x =? y | None, None => true | _, _ => false end.
(** UserTimeBreakdown::operator==, Time.hpp:32-39 *)
Definition breakdown_eqb (a b : breakdown) : bool :=
  oeqb (b_year a) (b_year b) && oeqb (b_month a) (b_month b) && oeqb (b_day a) (b_day b)
  && oeqb (b_hour a) (b_hour b) && oeqb (b_second a) (b_second b) && oeqb (b_zone a) (b_zone b).

(** cctz: days of a month, days since 1970-01-01 (civil_time_detail.h, ymd_ord), seconds since then *)
Definition leap (y : Z) : bool := (y mod 4 =? 0) && (negb (y mod 100 =? 0) || (y mod 400 =? 0)).
Definition month_days (y m : Z) : Z :=
  if m =? 2 then if leap y then 29 else 28
  else if (m =? 4) || (m =? 6) || (m =? 9) || (m =? 11) then 30 else 31.
Definition ymd_ord (y m d : Z) : Z :=
  let ey := if m <=? 2 then y - 1 else y in
  let era := Z.quot (if 0 <=? ey then ey else ey - 399) 400 in
  let yoe := ey - era * 400 in
  let doy := Z.quot (153 * (m + (if 2 <? m then -3 else 9)) + 2) 5 + d - 1 in
  let doe := yoe * 365 + Z.quot yoe 4 - Z.quot yoe 100 + doy in
  era * 146097 + doe - 719468.
Definition civil_seconds (c : civil) : Z :=
  ((ymd_ord (year c) (month c) (day c) * 24 + hour c) * 60 + minute c) * 60 + second c.
(** cctz::civil_second + 1, for normal fields *)
Definition plus_second (c : civil) : civil :=
  if second c <? 59 then Civil (year c) (month c) (day c) (hour c) (minute c) (second c + 1)
  else if minute c <? 59 then Civil (year c) (month c) (day c) (hour c) (minute c + 1) 0
  else if hour c <? 23 then Civil (year c) (month c) (day c) (hour c + 1) 0 0
  else if day c <? month_days (year c) (month c) then Civil (year c) (month c) (day c + 1) 0 0 0
  else if month c <? 12 then Civil (year c) (month c + 1) 1 0 0 0
  else Civil (year c + 1) 1 1 0 0 0.
(** cctz::convert(civil_second, time_zone), for a fixed zone; zone or utc_time_zone, Time.cpp:58, 89-90, 101 *)
Definition instant (t : utime) : Z := civil_seconds (civ t) - match zone t with Some o => o | None => 0 end.
(** Seconds that a system_clock time point holds *)
Definition clock_max : Z := 9223372036.
Definition in_clock (n : Z) : bool := (- clock_max <=? n) && (n <=? clock_max).
(** UserTime::getTimeDeltaSeconds, Time.cpp:88-98 *)
Definition delta_seconds (t u : utime) : Z := instant t - instant u.
(** UserTime::toUnixTimestamp, Time.cpp:100-118: the difference to the epoch is taken in nanoseconds *)
Definition to_unix (t : utime) : outcome Z :=
  let n := instant t in
  if negb (in_clock n) then UB
  else if (n <? -2147483648) || (2147483647 <? n) then Throw else Ok n.

(** Decimal digits; fmt's {:+03} and {:+05}; cctz's %Y without padding and the other fields with two digits *)
Fixpoint digits_of (fuel : nat) (z : Z) (acc : str) : str :=
  match fuel with
  | O => acc
  | S f => let acc := 48 + z mod 10 :: acc in if z <? 10 then acc else digits_of f (z / 10) acc
  end.
Definition decimal (z : Z) : str :=
  if z <? 0 then 45 :: digits_of (S (Z.to_nat (- z))) (- z) [] else digits_of (S (Z.to_nat z)) z [].
Definition two (z : Z) : str := [48 + z / 10; 48 + z mod 10].
Definition signed (w : nat) (z : Z) : str :=
  let d := digits_of (S (Z.to_nat (Z.abs z))) (Z.abs z) [] in
  (if z <? 0 then 45 else 43) :: repeat 48 (w - 1 - length d) ++ d.

(** UserTime::format(OrgFormat), Time.cpp:42-80; offsets of zones are at most a day, so nothing overflows *)
Definition format_org (t : utime) : str :=
  let c := civ t in
  let date := match al t with
              | AYear => decimal (year c)
              | AMonth => decimal (year c) ++ 45 :: two (month c)
              | _ => decimal (year c) ++ 45 :: two (month c) ++ 45 :: two (day c)
              end in
  let clock := match al t with
               | AHour => 32 :: two (hour c)
               | AMinute => 32 :: two (hour c) ++ 58 :: two (minute c)
               | ASecond => 32 :: two (hour c) ++ 58 :: two (minute c) ++ 58 :: two (second c)
               | _ => []
               end in
  let z := match zone t with
           | None => []
           | Some o =>
               let offset := Z.quot o 60 in
               let hours := Z.quot offset 60 in
               let minutes := Z.rem offset 60 in
               if minutes =? 0 then 32 :: signed 3 hours else 32 :: signed 5 offset
           end in
  date ++ clock ++ z.

(** ** cctz::parse *)
Inductive elem := EY | Em | Ed | Ea | EH | EM | ES | ESp | ELit (c : Z).
Definition is_dig (c : Z) : bool := (48 <=? c) && (c <=? 57).
Definition is_ws (c : Z) : bool := (c =? 32) || ((9 <=? c) && (c <=? 13)).
Fixpoint skip_ws (s : str) : str := match s with c :: r => if is_ws c then skip_ws r else s | [] => [] end.
(** At most [w] digits, all if [w] is None: their value, their number, the rest *)
Fixpoint take_digits (w : option nat) (v : Z) (n : nat) (s : str) : Z * nat * str :=
  match w, s with
  | Some O, _ => (v, n, s)
  | _, c :: r => if is_dig c then take_digits (option_map pred w) (v * 10 + (c - 48)) (S n) r else (v, n, s)
  | _, [] => (v, n, s)
  end.
(** ParseInt of cctz: an optional minus that counts for the width, no negative zero, a range *)
Definition parse_int (w : option nat) (lo hi : Z) (s : str) : option (Z * str) :=
  let '(neg, w, s) := match s with 45 :: r => (true, option_map pred w, r) | _ => (false, w, s) end in
  let '(v, n, r) := take_digits w 0 0 s in
  if (n =? 0)%nat then None
  else if (neg : bool) && (v =? 0) then None
  else let v := if neg then - v else v in
       if (lo <=? v) && (v <=? hi) then Some (v, r) else None.
Definition lower (c : Z) : Z := if (65 <=? c) && (c <=? 90) then c + 32 else c.
Fixpoint prefix_ci (p s : str) : option str :=
  match p, s with
  | [], _ => Some s
  | a :: p, c :: s => if lower a =? lower c then prefix_ci p s else None
  | _, [] => None
  end.
Definition weekdays : list str :=
  map lit ["sunday"; "monday"; "tuesday"; "wednesday"; "thursday"; "friday"; "saturday";
           "sun"; "mon"; "tue"; "wed"; "thu"; "fri"; "sat"]%string.
Fixpoint first_of (l : list str) (s : str) : option str :=
  match l with [] => None | p :: l => match prefix_ci p s with Some r => Some r | None => first_of l s end end.
Definition int64_min : Z := -9223372036854775808.
Definition int64_max : Z := 9223372036854775807.
Definition set_year v c := Civil v (month c) (day c) (hour c) (minute c) (second c).
Definition set_month v c := Civil (year c) v (day c) (hour c) (minute c) (second c).
Definition set_day v c := Civil (year c) (month c) v (hour c) (minute c) (second c).
Definition set_hour v c := Civil (year c) (month c) (day c) v (minute c) (second c).
Definition set_minute v c := Civil (year c) (month c) (day c) (hour c) v (second c).
Definition set_second v c := Civil (year c) (month c) (day c) (hour c) (minute c) v.
Definition number_field (w : option nat) (lo hi : Z) (set : Z -> civil -> civil) (c : civil) (s : str) : option (civil * str) :=
  match parse_int w lo hi s with Some (v, r) => Some (set v c, r) | None => None end.
Definition match_elem (e : elem) (c : civil) (s : str) : option (civil * str) :=
  match e with
  | EY => number_field None int64_min int64_max set_year c s
  | Em => number_field (Some 2%nat) 1 12 set_month c s
  | Ed => number_field (Some 2%nat) 1 31 set_day c s
  | EH => number_field (Some 2%nat) 0 23 set_hour c s
  | EM => number_field (Some 2%nat) 0 59 set_minute c s
  | ES => number_field (Some 2%nat) 0 60 set_second c s
  | Ea => match first_of weekdays s with Some r => Some (c, r) | None => None end
  | ESp => Some (c, skip_ws s)
  | ELit x => match s with y :: r => if x =? y then Some (c, r) else None | [] => None end
  end.
Fixpoint match_all (p : list elem) (c : civil) (s : str) : option civil :=
  match p with
  | [] => match skip_ws s with [] => Some c | _ => None end
  | e :: p => match match_elem e c s with Some (c, r) => match_all p c r | None => None end
  end.
(** The fields must be a date; second 60 is second 0 of the next minute; the time point must not overflow. [off] is the zone *)
Definition cctz_parse (p : list elem) (s : str) (off : Z) : outcome (option civil) :=
  match match_all p (Civil 1970 1 1 0 0 0) (skip_ws s) with
  | None => Ok None
  | Some c =>
      if month_days (year c) (month c) <? day c then Ok None
      else
        let c := if second c =? 60 then plus_second (set_second 59 c) else c in
        let n := civil_seconds c - off in
        if (n <? int64_min) || (int64_max <? n) then Ok None
        else if in_clock n then Ok (Some c) else UB
  end.

(** ParseUserTime, SemConvert.cpp:188-222 *)
Definition formats : list (list elem * align) :=
  let d := ELit 45 in let sl := ELit 47 in let co := ELit 58 in
  [ ([EY; d; Em; d; Ed; ESp; EH; co; EM; co; ES], ASecond);
    ([EY; sl; Em; sl; Ed; ESp; EH; co; EM; co; ES], ASecond);
    ([Ed; d; Em; d; EY; ESp; EH; co; EM; co; ES], ASecond);
    ([Ed; sl; Em; sl; EY; ESp; EH; co; EM; co; ES], ASecond);
    ([EY; d; Em; d; Ed; ESp; Ea; ESp; EH; co; EM; co; ES], ASecond);
    ([EY; d; Em; d; Ed; ESp; EH; co; EM], AMinute);
    ([EY; d; Em; d; Ed], ADay) ].
Fixpoint parse_formats (l : list (list elem * align)) (s : str) (z : option Z) : outcome (option utime) :=
  match l with
  | [] => Ok None
  | (p, a) :: l =>
      obind (cctz_parse p s (match z with Some o => o | None => 0 end)) (fun r =>
        match r with Some c => Ok (Some (Utime c z a)) | None => parse_formats l s z end)
  end.
Definition parse_user_time (s : str) (z : option Z) : outcome (option utime) := parse_formats formats s z.

(** std::stoi on the digits of a token *)
Definition stoi (s : str) : outcome Z :=
  match take_digits None 0 0 s with (v, S _, _) => if v <=? 2147483647 then Ok v else Throw | _ => Throw end.
(** ConvertToTimeZone, SemConvert.cpp:161-186; cctz::fixed_time_zone is UTC beyond 24 hours *)
Definition fixed_zone (o : Z) : Z := if 86400 <? Z.abs o then 0 else o.
Definition zone_of (z : str) : outcome Z :=
  let '(pos, z) := match z with 43 :: r => (true, r) | 45 :: r => (false, r) | _ => (true, z) end in
  obind (if (length z =? 2)%nat then omap (fun h => (h, 0)) (stoi z)
         else if (length z =? 4)%nat then
           obind (stoi (firstn 2 z)) (fun h => omap (fun m => (h, m)) (stoi (skipn 2 z)))
         else Ok (0, 0)) (fun hm =>
    let o := fst hm * 3600 + snd hm * 60 in Ok (fixed_zone (if pos : bool then o else - o))).

(** Time::Repeat, haxorg/sem/SemOrgTypes.hpp:319-343. The mode has no initial value: [None] if it was never set *)
Inductive mode := MNone | MExact | MFirstMatch | MSameDay.
Inductive period := PYear | PMonth | PWeek | PDay | PHour | PMinute.
Record repeat_ := Repeat { r_mode : option mode; r_count : Z; r_period : period }.
(** Time::Static, with isActive *)
Record stamp := Stamp { active : bool; at_time : utime; repeats : list repeat_; warn : option repeat_ }.
(** The fields of a parsed time: Year, Clock, Zone, Repeater (its sign and the first duration) and Warn *)
Record fields := Fields { f_active : bool; f_date : option str; f_clock : option str; f_zone : option str;
                          f_repeats : list (str * str); f_warn : option str }.

(** which_period, SemConvert.cpp:1080-1090 *)
Definition period_of (c : Z) : outcome period :=
  if c =? 100 then Ok PDay else if c =? 109 then Ok PMonth else if c =? 119 then Ok PWeek else if c =? 121 then Ok PYear
  else if c =? 77 then Ok PMinute else if c =? 104 then Ok PHour else Throw.
(** Str::toInt on the text of a duration: an optional sign and digits, up to the last character *)
Definition to_int (s : str) : outcome Z :=
  match s with 45 :: r => omap Z.opp (stoi r) | _ => stoi s end.
Definition duration (m : option mode) (s : str) : outcome repeat_ :=
  obind (to_int (removelast s)) (fun n =>
    match rev s with c :: _ => omap (fun p => Repeat m n p) (period_of c) | [] => Throw end).
Definition str_eqb (a b : str) : bool := if list_eq_dec Z.eq_dec a b then true else false.
(** The loop over repeaters, 1092-1110: another sign does not set the mode *)
Definition read_repeat (x : str * str) : outcome repeat_ :=
  duration (if str_eqb (fst x) (lit "++") then Some MFirstMatch else if str_eqb (fst x) (lit ".+") then Some MSameDay
            else if str_eqb (fst x) (lit "+") then Some MExact else None) (snd x).
Fixpoint read_repeats (l : list (str * str)) : outcome (list repeat_) :=
  match l with [] => Ok [] | x :: l => obind (read_repeat x) (fun r => omap (cons r) (read_repeats l)) end.
(** convertTime for static times, 1028-1130; None is the error node *)
Definition read_stamp (f : fields) : outcome (option stamp) :=
  let y := match f_date f with Some s => s | None => [] end in
  let text := match f_clock f with None => y | Some c => match y with [] => c | _ => y ++ 32 :: c end end in
  obind (match f_zone f with None => Ok None | Some z => omap Some (zone_of z) end) (fun z =>
  obind (parse_user_time text z) (fun p =>
    match p with
    | None => Ok None
    | Some t =>
        obind (read_repeats (f_repeats f)) (fun rs =>
        obind (match f_warn f with None => Ok None | Some w => omap Some (duration None w) end) (fun w =>
          Ok (Some (Stamp (f_active f) t rs w))))
    end)).

(** Formatter::toString(Time), SemOrgFormat.cpp:912-958, for static times *)
Definition period_char (p : period) : Z :=
  match p with PDay => 100 | PMonth => 109 | PHour => 104 | PWeek => 119 | PYear => 121 | PMinute => 77 end.
Definition mode_text (m : mode) : str :=
  match m with MNone => [] | MExact => lit "+" | MFirstMatch => lit "++" | MSameDay => lit ".+" end.
(** The switch over a mode that was never set is UB *)
Definition repeat_text (r : repeat_) : outcome str :=
  match r_mode r with
  | None => UB
  | Some m => Ok (mode_text m ++ decimal (r_count r) ++ [period_char (r_period r)])
  end.
Fixpoint repeats_text (l : list repeat_) : outcome str :=
  match l with [] => Ok [] | r :: l => obind (repeat_text r) (fun a => omap (fun b => a ++ b) (repeats_text l)) end.
Definition warn_text (r : repeat_) : str := decimal (r_count r) ++ [period_char (r_period r)].
Definition stamp_text (s : stamp) : outcome str :=
  obind (repeats_text (repeats s)) (fun rs =>
    Ok ((if active s then 60 else 91) :: format_org (at_time s) ++ rs
          ++ match warn s with Some w => warn_text w | None => [] end ++ [if active s then 62 else 93])).

(** TimeRange::getClockedTimeSeconds, haxorg/sem/SemOrgSharedApi.cpp:1192-1198, for static times *)
Definition clocked_seconds (from to : stamp) : Z := delta_seconds (at_time to) (at_time from).
