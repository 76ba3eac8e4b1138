(** Specification of the interpolation of colours, independent of the model. *)
From Coq Require Import Ascii String.
From Verif Require Import Np Fl ColorTypes.
Open Scope Z_scope.

(** [z] is the integer nearest to [q], the upper one for halves. *)
Definition rounds (q : Qc) (z : Z) : Prop :=
  (qz z - Q2Qc (1 # 2) <= q)%Qc /\ (q < qz z + Q2Qc (1 # 2))%Qc.
(** Channelwise. *)
Definition rounds3 (c : t3 Qc) (z : t3 Z) : Prop :=
  rounds (red c) (red z) /\ rounds (green c) (green z) /\ rounds (blue c) (blue z).
(** The point at fraction [t] of the segment from [a] to [b]. *)
Definition between (t : Qc) (a b : t3 Qc) : t3 Qc :=
  T3 (red a + t * (red b - red a))%Qc (green a + t * (green b - green a))%Qc (blue a + t * (blue b - blue a))%Qc.

(** [c] is the colour at [x] of a scale with increasing (not necessarily strictly)
    positions. *)
Definition color_at (stops : list (Qc * t3 Qc)) (x : Qc) (c : t3 Z) : Prop :=
  (exists s0 c0, Znth stops 0 = Some (s0, c0) /\ (x < s0)%Qc /\ rounds3 c0 c) \/
  (exists s1 c1, Znth stops (zlen stops - 1) = Some (s1, c1) /\ (s1 <= x)%Qc /\ rounds3 c1 c) \/
  (exists k s c0 s' c1, Znth stops k = Some (s, c0) /\ Znth stops (k + 1) = Some (s', c1) /\
     (s <= x)%Qc /\ (x < s')%Qc /\ rounds3 (between ((x - s) / (s' - s)) c0 c1) c).
Definition increasing_stops (stops : list (Qc * t3 Qc)) : Prop :=
  forall i j s c s' c', i <= j -> Znth stops i = Some (s, c) -> Znth stops j = Some (s', c') -> (s <= s')%Qc.
(** Channels in 0..255. *)
Definition channel (q : Qc) : Prop := (0 <= q)%Qc /\ (q <= qz 255)%Qc.
Definition valid_color (c : t3 Qc) : Prop := channel (red c) /\ channel (green c) /\ channel (blue c).

(** The colour denoted by "#rrggbb", for hexadecimal digits in either case. *)
Definition digit_value (a : ascii) (d : Z) : Prop :=
  0 <= d < 16 /\ (a = nth (Z.to_nat d) (list_ascii_of_string "0123456789abcdef") "x"%char \/
                  a = nth (Z.to_nat d) (list_ascii_of_string "0123456789ABCDEF") "x"%char).
Definition hex_denotes (s : string) (c : t3 Z) : Prop :=
  exists a0 a1 a2 a3 a4 a5 d0 d1 d2 d3 d4 d5,
    s = string_of_list_ascii ["#"%char; a0; a1; a2; a3; a4; a5] /\
    digit_value a0 d0 /\ digit_value a1 d1 /\ digit_value a2 d2 /\
    digit_value a3 d3 /\ digit_value a4 d4 /\ digit_value a5 d5 /\
    c = T3 (16 * d0 + d1) (16 * d2 + d3) (16 * d4 + d5).
(** A colour scale given by stops or by equally spaced colours; all colours in the
    same format. *)
Definition color_denotes (rgb : bool) (c : color) (v : t3 Qc) : Prop :=
  match c with
  | RgbText w => rgb = true /\ v = w
  | HexText s => rgb = false /\ exists z, hex_denotes s z /\ v = t3map qz z
  | _ => False
  end.
Definition scale_denotes (cs : colorscale_t) (stops : list (Qc * t3 Qc)) : Prop :=
  stops <> [] /\ exists rgb,
  match cs with
  | Stops l => Forall2 (fun p st => fst p = fst st /\ color_denotes rgb (snd p) (snd st)) l stops
  | Colors l => Forall2 (color_denotes rgb) l (map snd stops) /\
      forall k s c, Znth stops k = Some (s, c) ->
        s = if zlen stops =? 1 then 0%Qc else (qz k / qz (zlen stops - 1))%Qc
  end.
