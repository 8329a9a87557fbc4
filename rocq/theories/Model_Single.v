(** The eigenvalues of the Laplacian and the implicit diffusion step as NumPy
    computes them: the eigenvalues are computed in double precision and cast to
    complex64 (grid.py:70-77), the powers and the quotient are computed in
    complex64 (grid.py:408-411).  All complex numbers but the coefficients of the
    field have imaginary part 0, so their real parts (binary32) are modelled:
    (a + 0i) (b + 0i) has the real part a b - 0, and numerator and denominator of
    a complex quotient x / (d + 0i) are computed with Smith's formula,
    (re x * (1 / d), im x * (1 / d)).  The signs of zeros are not followed. *)
From Verif Require Import Base Model_Float Model_Spectral.
From Coq Require Import List.

Definition b32 := spec_float.
Definition b32_prec : Z := 24.
Definition b32_emax : Z := 128.
Definition b32_add : b32 -> b32 -> b32 := SFadd b32_prec b32_emax.
Definition b32_mul : b32 -> b32 -> b32 := SFmul b32_prec b32_emax.
Definition b32_div : b32 -> b32 -> b32 := SFdiv b32_prec b32_emax.
Definition b32_one : b32 := binary_normalize b32_prec b32_emax 1 0 false.
(** astype(np.complex64), and the conversion of a Python float in an operation with
    a complex64 array *)
Definition cast32 (x : b64) : b32 :=
  match x with
  | S754_finite s m e => binary_normalize b32_prec b32_emax (if s then Zneg m else Zpos m) e s
  | _ => x
  end.

(** grid.py:75-77: specindxn * (1. + specindxn) / rsphere / rsphere *)
Definition eigenvalue32 (rsphere : b64) (n : nat) : b32 :=
  let x := b64_of_Z (Z.of_nat n) in
  cast32 (b64_div (b64_div (b64_mul x (b64_add (b64_of_Z 1) x)) rsphere) rsphere).

(** complex64 array ** Python int (npy_cpow: products for the exponents up to 3,
    repeated squaring from the least significant bit for 4 to 99; exponent 0: ones) *)
Fixpoint pow_loop (k : positive) (aa p : b32) : b32 :=
  match k with
  | xH => b32_mul aa p
  | xO k => pow_loop k aa (b32_mul p p)
  | xI k => pow_loop k (b32_mul aa p) (b32_mul p p)
  end.
Definition power32 (x : b32) (k : nat) : b32 :=
  match k with
  | 0 => b32_one
  | 1 => x
  | 2 => b32_mul x x
  | 3 => b32_mul x (b32_mul x x)
  | _ => pow_loop (Pos.of_nat k) b32_one x
  end.

(** The eigenvalue of every spectral coefficient, grid.py:74-77 *)
Definition eigenvalues32 (rsphere : b64) (ntrunc : nat) : list b32 := map (eigenvalue32 rsphere) (specindxn ntrunc).

(** grid.py:358 for one part of a coefficient: -f * eigenvalue *)
Definition laplace32 (l : b32) (x : b32) : b32 := b32_mul (SFopp x) l.
(** grid.py:383 for one part of a coefficient, op_add = 0 *)
Definition poisson32 (l : b32) (x : b32) : b32 := b32_mul (SFopp x) (b32_div b32_one l).

(** grid.py:410-411: 1. + dt * coeff * eigenvalues_op.  dt * coeff is a Python float;
    where it is too large for single precision NumPy 1 continues in double
    precision and NumPy 2 with inf, so that only smaller products are covered. *)
Definition denominator32 (coeff dt : b64) (order : nat) (l : b32) : b32 :=
  b32_add b32_one (b32_mul (cast32 (b64_mul dt coeff)) (power32 l order)).
(** grid.py:411 for one part (real or imaginary) of a coefficient *)
Definition diffuse32 (coeff dt : b64) (order : nat) (l x : b32) : b32 :=
  b32_mul x (b32_div b32_one (denominator32 coeff dt order l)).
(** Grid.solve_diffusion_spectral, grid.py:408-411 *)
Definition solve_diffusion32 (rsphere : b64) (ntrunc : nat) (f : list (b32 * b32)) (coeff dt : b64) (order : nat) : list (b32 * b32) :=
  map2 (fun c l => (diffuse32 coeff dt order l (fst c), diffuse32 coeff dt order l (snd c))) f (eigenvalues32 rsphere ntrunc).
