(** Model of time.ParseDuration (Go 1.25), which /repo/decode.go:471 calls and
    which is not in /repo.  Simplified: texts of errors are left out. *)
From Verif Require Import Bytes IntModel FloatModel DecModel.

(** unitMap, in nanoseconds; micro is written u, U+00B5 or U+03BC.  Library
    function used at decode.go:471, as are all below. *)
Definition dur_units : list (bytes * Z) :=
  [(bs "ns", 1); (bs "us", 1000); ([0xC2; 0xB5; 115], 1000); ([0xCE; 0xBC; 115], 1000); (bs "ms", 1000000);
   (bs "s", 1000000000); (bs "m", 60000000000); (bs "h", 3600000000000)].
(** unitMap[u]: decode.go:471 *)
Definition dur_unit (u : bytes) : option Z := option_map snd (find (fun e => beqb (fst e) u) dur_units).

(** leadingInt; None is errLeadingInt: decode.go:471 *)
Fixpoint lead_int (x : Z) (s : bytes) : option (Z * bytes) :=
  match s with
  | c :: t =>
      if isd c then
        if 2 ^ 63 / 10 <? x then None
        else let y := x * 10 + (c - 48) in if 2 ^ 63 <? y then None else lead_int y t
      else Some (x, s)
  | [] => Some (x, s)
  end.

(** A float64 that is not negative: significand and exponent, None is +Inf. *)
(** decode.go:471 *)
Definition f64 : Type := option (Z * Z).
(** The float64 nearest to n/d, for n >= 0 and d > 0: decode.go:471 *)
Definition f64_of (n d : Z) : f64 :=
  if n =? 0 then Some (0, 0)
  else
    let x := round_to binary64 n d in
    let (n', d') := ratio 2 (fst x) (snd x) in
    if d' * 2 ^ b_emax binary64 <=? n' then None else Some x.
(** scale *= 10: decode.go:471 *)
Definition f64_times10 (x : f64) : f64 :=
  match x with None => None | Some (m, e) => let (n, d) := ratio 2 m e in f64_of (10 * n) d end.
(** leadingFraction: digits that would overflow x are skipped: decode.go:471 *)
Fixpoint lead_frac (x : Z) (sc : f64) (over : bool) (s : bytes) : Z * f64 * bytes :=
  match s with
  | c :: t =>
      if isd c then
        if over then lead_frac x sc over t
        else if (2 ^ 63 - 1) / 10 <? x then lead_frac x sc true t
        else let y := x * 10 + (c - 48) in
             if 2 ^ 63 <? y then lead_frac x sc true t else lead_frac y (f64_times10 sc) over t
      else (x, sc, s)
  | [] => (x, sc, s)
  end.
(** uint64(float64(f) * (float64(unit) / scale)), for f > 0: decode.go:471 *)
Definition frac_ns (f unit : Z) (sc : f64) : Z :=
  match sc with
  | None => 0
  | Some (m, e) =>
      let (n, d) := ratio 2 m e in
      match f64_of f 1, f64_of (unit * d) n with
      | Some (mf, ef), Some (mq, eq) =>
          let (nf, df) := ratio 2 mf ef in let (nq, dq) := ratio 2 mq eq in
          match f64_of (nf * nq) (df * dq) with
          | Some (mp, ep) => let (np, dp) := ratio 2 mp ep in np / dp
          | None => 0
          end
      | _, _ => 0
      end
  end.
(** Up to the next digit or point: decode.go:471 *)
Fixpoint take_unit (s : bytes) : bytes * bytes :=
  match s with
  | c :: t => if (c =? 46) || isd c then ([], s) else let (u, r) := take_unit t in (c :: u, r)
  | [] => ([], [])
  end.
(** One pass of the loop: a number and its unit, in nanoseconds: decode.go:471 *)
Definition dur_one (s : bytes) : option (Z * bytes) :=
  match s with
  | [] => None
  | c :: _ =>
      if negb ((c =? 46) || isd c) then None
      else match lead_int 0 s with
           | None => None
           | Some (v, s1) =>
               let pre := negb (Nat.eqb (length s) (length s1)) in
               let '(f, sc, post, s2) :=
                 match s1 with
                 | 46 :: t => let '(f, sc, r) := lead_frac 0 (Some (1, 0)) false t in (f, sc, negb (Nat.eqb (length t) (length r)), r)
                 | _ => (0, Some (1, 0), false, s1)
                 end in
               if negb pre && negb post then None
               else match take_unit s2 with
                    | ([], _) => None
                    | (u, r) =>
                        match dur_unit u with
                        | None => None
                        | Some unit =>
                            if 2 ^ 63 / unit <? v then None
                            else
                              let v := v * unit in
                              if 0 <? f then
                                let v := v + frac_ns f unit sc in
                                if 2 ^ 63 <? v then None else Some (v, r)
                              else Some (v, r)
                        end
                    end
           end
  end.
(** The loop; d += v is addition of uint64: decode.go:471 *)
Fixpoint dur_loop (fuel : nat) (s : bytes) (d : Z) : option Z :=
  match s with
  | [] => Some d
  | _ =>
      match fuel with
      | O => None
      | S fuel' =>
          match dur_one s with
          | None => None
          | Some (v, r) => let d := (d + v) mod 2 ^ 64 in if 2 ^ 63 <? d then None else dur_loop fuel' r d
          end
      end
  end.
(** time.ParseDuration: decode.go:471 *)
Definition parse_dur (s : bytes) : option Z :=
  let (neg, s) := match s with c :: t => if (c =? 45) || (c =? 43) then (c =? 45, t) else (false, s) | [] => (false, s) end in
  if beqb s [48] then Some 0
  else match s with
       | [] => None
       | _ =>
           match dur_loop (length s) s 0 with
           | None => None
           | Some d => if neg then Some (- d) else if 2 ^ 63 - 1 <? d then None else Some d
           end
       end.
