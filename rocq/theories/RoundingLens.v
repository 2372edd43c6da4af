(** * Lens distortion in rounded arithmetic: lens_distortion.py 141-173, 233-267 *)
Require Import Reals Bool.
From Verif Require Import Num Vec Rounding RoundingGps.
Open Scope R_scope.

(** The operations of Rounding.v and RoundingGps.v, and [r ** n] for the radius (np.power)
    (lens_distortion.py 149, 243) *)
Record lfloats := LFloats { l_ops : gfloats; l_pow : R -> nat -> R }.

Section Rounded.
Context (T : lfloats).
Notation G := (l_ops T).
Notation A := (g_ops G).
Notation fl := (f_round A).

(** BrownLensDistortion._convert_radius, 148-149 *)
Definition f_brown (k1 k2 k3 r : R) : R :=
  fl (r * fl (fl (fl (1 + fl (k1 * l_pow T r 2)) + fl (k2 * l_pow T r 4)) + fl (k3 * l_pow T r 6))).
(** ABCDistortion: self.d, 234, and _convert_radius, 242-243 *)
Definition f_abc_d (a b c : R) : R := fl (fl (fl (1 - a) - b) - c).
(** lens_distortion.py 234, 243 *)
Definition f_abc (a b c r : R) : R :=
  fl (fl (fl (fl (f_abc_d a b c * r) + fl (c * l_pow T r 2)) + fl (b * l_pow T r 3)) + fl (a * l_pow T r 4)).
(** np.linalg.norm of the two coordinates (lens_distortion.py 156, 168) *)
Definition f_norm2 (p : v2 R) : R := g_sqrt G (fl (fl (c1 p * c1 p) + fl (c2 p * c2 p))).
(** distortedFromImage and imageFromDistorted, 151-173 and 245-267, for one pixel that is not the centre; [conv] is
    the radius map or its numerical inverse *)
Definition f_lens_map (offset scale : v2 R) (conv : R -> R) (q : v2 R) : v2 R :=
  let points := zip2v (fun x s => fl (x / s)) (zip2v (fun x o => fl (x - o)) q offset) scale in
  let r := f_norm2 points in
  let moved := map2v (fun x => fl (fl (x / r) * conv r)) points in
  zip2v (fun x o => fl (x + o)) (zip2v (fun x s => fl (x * s)) moved scale) offset.
End Rounded.
