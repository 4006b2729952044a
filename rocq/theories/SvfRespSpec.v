(** What a filter type means at every frequency: the analog filter it stands for.
    [C] is the complex numbers of Coquelicot. *)
From Coq Require Import Reals.
From Coquelicot Require Import Complex.
From Verif Require Import Base SvfModel SvfSpec.
Local Open Scope R_scope.

(** A sinusoid of [f] Hz, amplitude [a], phase [phi] *)
Definition angle (sr f phi : R) (n : nat) : R := 2 * PI * f / sr * INR n + phi.
Definition sinusoid (sr f a phi : R) (n : nat) : R := a * cos (angle sr f phi n).
(** The same sinusoid after a filter whose complex gain at [f] is [h]: amplitude times the modulus, phase plus the argument *)
Definition filtered (h : C) (sr f a phi : R) (n : nat) : R :=
  a * (Re h * cos (angle sr f phi n) - Im h * sin (angle sr f phi n)).

(** Where [f] lies relative to the cutoff on the frequency axis of the analog filter.  The bilinear transform bends the axis
    (half the sample rate becomes infinity) but keeps 0 and, since both are bent alike, puts the cutoff at 1. *)
Definition relative (sr cutoff f : R) : R := tan (PI * f / sr) / tan (PI * cutoff / sr).

(** The transfer functions of the analog filters, cutoff 1.  [q] is the resonance, [A] the square root of the gain of a bell
    or shelf, as usual for these types. *)
Definition prototype (ty : svf_type) (q A : R) (s : C) : C :=
  (let rA : C := RtoC (sqrt A) in let q : C := RtoC q in let A : C := RtoC A in
   let one : C := RtoC 1 in
   match ty with
   | Low => one / (s * s + s / q + one)
   | High => s * s / (s * s + s / q + one)
   | Band => s / (s * s + s / q + one)
   | Notch => (s * s + one) / (s * s + s / q + one)
   | Peak => (s * s - one) / (s * s + s / q + one)
   | All => (s * s - s / q + one) / (s * s + s / q + one)
   | Bell => (s * s + A / q * s + one) / (s * s + s / (A * q) + one)
   | LowShelf => A * (s * s + rA / q * s + A) / (A * (s * s) + rA / q * s + one)
   | HighShelf => A * (A * (s * s) + rA / q * s + one) / (s * s + rA / q * s + A)
   end)%C.
(** The complex gain a filter should have at [f] *)
Definition wanted (ty : svf_type) (sr cutoff q gain f : R) : C :=
  prototype ty q (sqrt (linear_gain gain)) (Ci * RtoC (relative sr cutoff f))%C.
(** The filter's output becomes the sinusoid with the complex gain [h], whatever it was doing before. *)
Definition responds (sr : R) (s : svf R) (f : R) (h : C) : Prop :=
  forall a phi, Un_cv (fun n => output s (sinusoid sr f a phi) n - filtered h sr f a phi n) 0.
(** The gain of the simple types at the cutoff: the low pass passes [q] times the amplitude a quarter period late, and so on. *)
Definition at_cutoff (ty : svf_type) (q : R) : option C :=
  match ty with
  | Low => Some (0, - q) | High => Some (0, q) | Band => Some (q, 0) | Notch => Some (0, 0) | Peak => Some (0, 2 * q) | All => Some (- (1), 0)
  | Bell | LowShelf | HighShelf => None
  end.
(** A bell at a quarter of the sample rate that is set to multiply by 16 (24.08 dB) *)
Definition bell16 : svf R := set_coeffs Rops (svf_new Rops Bell 12000 1 (40 * (ln 4 / ln 10))) 48000.
