(** Model of the colour interpolation of gtda/mapper/utils/_visualization.py
    (lines 495-552: _hex_to_rgb, _rbg_to_hex, _get_colors_for_vals). *)
From Coq Require Import Ascii String.
From Verif Require Import Np Fl VecModel ColorTypes.
Open Scope Z_scope.

Definition t3map2 {A B C} (f : A -> B -> C) (c : t3 A) (d : t3 B) : t3 C :=
  T3 (f (red c) (red d)) (f (green c) (green d)) (f (blue c) (blue d)).

(** int(s, 16) on strings of hexadecimal digits; anything else is a ValueError
    (signs, underscores and blanks, which Python accepts, are left out). *)
Definition hex_digit (a : ascii) : res Z :=
  let n := Z.of_N (N_of_ascii a) in
  if (48 <=? n) && (n <=? 57) then Ok (n - 48)
  else if (97 <=? n) && (n <=? 102) then Ok (n - 87)
  else if (65 <=? n) && (n <=? 70) then Ok (n - 55)
  else Err ValueError.
Fixpoint int16_from (acc : Z) (s : string) : res Z :=
  match s with
  | EmptyString => Ok acc
  | String a t => do d <- hex_digit a; int16_from (16 * acc + d) t
  end.
Definition int16 (s : string) : res Z :=
  match s with EmptyString => Err ValueError | _ => int16_from 0 s end.
(** s.lstrip("#") *)
Fixpoint lstrip_hash (s : string) : string :=
  match s with
  | String a t => if (N_of_ascii a =? 35)%N then lstrip_hash t else s
  | EmptyString => s
  end.
(** Lines 495-498 *)
Definition hex_to_rgb (value : string) : res (t3 Z) :=
  let value := lstrip_hash value in
  do r <- int16 (substring 0 2 value);
  do g <- int16 (substring 2 2 value);
  do b <- int16 (substring 4 2 value);
  Ok (T3 r g b).
(** Lines 501-503, for channels in 0..255. *)
Definition hex_char (n : Z) : ascii :=
  ascii_of_N (Z.to_N (if n <? 10 then 48 + n else 87 + n)).
Definition hex2 (n : Z) : string := String (hex_char (n / 16)) (String (hex_char (n mod 16)) EmptyString).
Definition rgb_to_hex (c : t3 Z) : string :=
  (String (ascii_of_N 35) (hex2 (red c)) ++ hex2 (green c) ++ hex2 (blue c))%string.

(** np.digitize(x, bins): ValueError unless [bins] is monotonic. *)
Fixpoint nondecreasing (l : list Qc) : bool :=
  match l with
  | x :: ((y :: _) as t) => Qcleb x y && nondecreasing t
  | _ => true
  end.
Definition digitize (bins : list Qc) (x : Qc) : res Z :=
  let count := zlen (filter (fun b => Qcleb b x) bins) in
  if nondecreasing bins then Ok count
  else if nondecreasing (rev bins) then Ok (zlen bins - count)
  else Err ValueError.

(** float -> np.uint8 (values outside 0..255 wrap around) *)
Definition to_uint8 (q : Qc) : Z := Z.quot (Qnum q) (Zpos (Qden q)) mod 256.

(** Lines 524-530: the format is decided by the first colour. *)
Definition parse_colors (colors : list color) : res (list (t3 Qc)) :=
  match colors with
  | [] => Err IndexError
  | (RgbText _ | BadRgbText) :: _ =>
      mapM (fun c => match c with RgbText v => Ok v | _ => Err ValueError end) colors
  | HexText _ :: _ =>
      mapM (fun c => match c with HexText s => rmap (t3map qz) (hex_to_rgb s) | _ => Err ValueError end) colors
  | OtherText :: _ => Err ValueError
  end.

(** Lines 532-536: differences of consecutive rows of [scale | colours], each
    divided by the difference of positions; the last row is replaced by zeros.
    (A difference 0 of positions gives inf or nan in numpy and 0 here; such rows
    are never used, see ColorThms.v.) *)
Fixpoint diff_ratios (rows : list (Qc * t3 Qc)) : list (t3 Qc) :=
  match rows with
  | [] => []
  | [_] => [T3 0%Qc 0%Qc 0%Qc]
  | (s, c) :: (((s', c') :: _) as t) =>
      t3map2 (fun a a' => ((a' - a) / (s' - s))%Qc) c c' :: diff_ratios t
  end.

(** Lines 506-547, before conversion to strings. *)
Definition colors_for_vals (vals : list Qc) (vmin vmax : Qc) (colorscale : colorscale_t)
  : res (list (t3 Z)) :=
  if Qcleb vmax vmin then Err ValueError
  else
    do sc <- (match colorscale with
              | Stops [] | Colors [] => Err IndexError
              | Stops l => Ok (map fst l, map snd l)
              | Colors l => Ok (fst (linspace 0 1 (zlen l)), l)
              end);
    let '(scale, colors) := sc in
    do colors <- parse_colors colors;
    let rows := combine scale colors in
    let table := rows ++ firstn 1 rows in
    let ratios := diff_ratios rows in
    mapM (fun v =>
      let x := ((v - vmin) / (vmax - vmin))%Qc in
      do i <- digitize scale x;
      do endpt <- py_get table (i - 1);
      do ratio <- py_get ratios (i - 1);
      Ok (t3map2 (fun c r => to_uint8 (c + r * (x - fst endpt) + Q2Qc (1 # 2))%Qc) (snd endpt) ratio)) vals.
(** Lines 549-550 (return_hex=True). *)
Definition hex_colors_for_vals (vals : list Qc) (vmin vmax : Qc) (colorscale : colorscale_t)
  : res (list string) :=
  rmap (map rgb_to_hex) (colors_for_vals vals vmin vmax colorscale).
