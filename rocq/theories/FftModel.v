(** Fourier transforms: Geometry/plan_ffts.c and what fftw_execute does with such a plan.

    FFTW itself is not modelled; a complex DFT plan is taken to compute the sum in FFTW's manual
    (section "The Multi-dimensional Complex DFT"), in exact arithmetic:
      out[k] = sum_j in[j] prod_s exp( sign 2 pi i k_s j_s / n_s )
    with the arrays stored in row-major order (last dimension fastest), sign = -1 for FFTW_FORWARD
    and +1 for FFTW_BACKWARD, without normalisation. *)
From Verif Require Import CInt GeomModel Cplx CMat Arr.
From Verif Require Import GeomSpec.
Local Open Scope Z_scope.

(** exp( i x ) *)
Definition cis (x : R) : C := (cos x, sin x).
(** row-major coordinates *)
Fixpoint rm_coords (n : list Z) (j : Z) : list Z :=
  match n with [] => [] | d :: n' => (j / prodZ n') mod d :: rm_coords n' j end.
(** sum_s k_s j_s / n_s *)
Fixpoint phase (n k j : list Z) : R :=
  match n, k, j with
  | d :: n', a :: k', b :: j' => (IZR a * IZR b / IZR d + phase n' k' j')%R
  | _, _, _ => 0%R
  end.
Definition fft_size (n : list Z) : nat := Z.to_nat (prodZ n).
(** one fftw_execute of a plan with dimensions n reading src and writing dst *)
Definition fftw_execute (sign : R) (n : list Z) (src dst : arr) : arr := fun k =>
  if Nat.ltb k (fft_size n)
  then csum (fft_size n) (fun j => (src j * cis (sign * (2 * PI * phase n (rm_coords n (Z.of_nat k)) (rm_coords n (Z.of_nat j)))))%C)
  else dst k.
Definition FORWARD : R := (-1)%R.
Definition BACKWARD : R := 1%R.

(** small_create_plans_DFT, plan_ffts.c:175-191: the dimensions given to FFTW, in reverse order *)
Definition plan_dims (dims : list Z) (DIR : nat) : list Z := rev (firstn DIR dims).
