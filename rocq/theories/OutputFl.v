(** The scaling of the responses of a Gaussian process (models/gaussian_process.py) in binary64.  [np.mean] and
    [np.std] belong to NumPy: the former divides the sum by the number of entries, the latter takes the square root
    of the mean of the squared differences from that mean.  The sums are the argument [np_sum]. *)
From Coq Require Import ZArith List.
From Verif Require Import Fl NpList KernelFl.
Import ListNotations.

Section Scaling.
Variable np_sum : list b64 -> b64.
Definition count64 (Y : list b64) : b64 := fz (Z.of_nat (length Y)).
(** 348 (and 373): [np.mean(Y)] *)
Definition mean64 (Y : list b64) : b64 := fdiv (np_sum Y) (count64 Y).
(** 349 (and 384): [np.std(Y)] *)
Definition std64 (Y : list b64) : b64 :=
  let m := mean64 Y in
  fsqrt (fdiv (np_sum (map (fun y => let x := fsub y m in fmul x x) Y)) (count64 Y)).
(** 334-351 [normalize_output] *)
Definition normalize_output64 (Y : list b64) : list b64 :=
  let y_mean := mean64 Y in
  let y_std := std64 Y in
  map (fun y => fdiv (fsub y y_mean) y_std) Y.
(** 123: [fmean*self.y_std + self.y_mean], one entry *)
Definition restored64 (Y : list b64) (v : b64) : b64 := fadd (fmul v (std64 Y)) (mean64 Y).
End Scaling.
