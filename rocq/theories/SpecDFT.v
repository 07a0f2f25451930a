(** Vocabulary for statements about the transforms, independent of the model's functions. *)
From Coq Require Import ZArith List Bool Reals.
From Verif Require Import Base GSum DFT SpecMat.
Import ListNotations.
Open Scope Z_scope.

(** complex numbers *)
Notation CC := (Cops Rops).
Definition cis (x : R) : CC := mk Rops (cos x) (sin x).
Definition real (x : R) : CC := mk Rops x 0%R.
Fixpoint cpow (z : CC) (k : nat) : CC := match k with O => 1%num | S k => (z * cpow z k)%num end.

(** the j-th evaluation point exp(i pi 5^j / N), and the value there of the polynomial with coefficients m *)
Definition point (N j : Z) : CC := cis (PI * IZR (5 ^ j) / IZR N).
Definition evaluate (N : Z) (m : Z -> R) (z : CC) : CC := gsum N (fun k => (real (m k) * cpow z (Z.to_nat k))%num).
Definition slot (N : Z) (m : Z -> R) (j : Z) : CC := evaluate N m (point N j).

(** what earlier calls of fft, fftNR (of ifft, ifftNR) may have left in the function-static tables *)
Inductive fft_static (LOGN : Z) : tables -> Prop :=
| fft_first : fft_static LOGN None
| fft_next st m zr zi st' out : fft_static LOGN st -> fft LOGN st m zr zi = Ok (st', out) -> fft_static LOGN st'
| fftNR_next st m zr zi st' out : fft_static LOGN st -> fftNR LOGN st m zr zi = Ok (st', out) -> fft_static LOGN st'.
Inductive ifft_static (LOGN : Z) : tables -> Prop :=
| ifft_first : ifft_static LOGN None
| ifft_next st zr zi m st' out : ifft_static LOGN st -> ifft LOGN st zr zi m = Ok (st', out) -> ifft_static LOGN st'
| ifftNR_next st zr zi m st' out : ifft_static LOGN st -> ifftNR LOGN st zr zi m = Ok (st', out) -> ifft_static LOGN st'.

(** A program that makes calls of the four functions one after another; the two pairs of static tables are kept
    between calls.  The result is the list of the arrays written by the calls. *)
Inductive dcall := CallFft (m zr zi : rarr) | CallFftNR (m zr zi : rarr) | CallIfft (zr zi m : rarr) | CallIfftNR (zr zi m : rarr).
Definition dstep (LOGN : Z) (s : tables * tables) (c : dcall) : res ((tables * tables) * list rarr) :=
  match c with
  | CallFft m zr zi => '(t, (a, b)) <- fft LOGN (fst s) m zr zi ;; Ok ((t, snd s), [a; b])
  | CallFftNR m zr zi => '(t, (a, b)) <- fftNR LOGN (fst s) m zr zi ;; Ok ((t, snd s), [a; b])
  | CallIfft zr zi m => '(t, a) <- ifft LOGN (snd s) zr zi m ;; Ok ((fst s, t), [a])
  | CallIfftNR zr zi m => '(t, a) <- ifftNR LOGN (snd s) zr zi m ;; Ok ((fst s, t), [a])
  end.
Fixpoint drun (LOGN : Z) (s : tables * tables) (cs : list dcall) : res (list (list rarr)) :=
  match cs with
  | [] => Ok []
  | c :: cs => '(s, a) <- dstep LOGN s c ;; rest <- drun LOGN s cs ;; Ok (a :: rest)
  end.
(** the same calls, each of them the first one of a program *)
Fixpoint dfresh (LOGN : Z) (cs : list dcall) : res (list (list rarr)) :=
  match cs with
  | [] => Ok []
  | c :: cs => '(_, a) <- dstep LOGN (None, None) c ;; rest <- dfresh LOGN cs ;; Ok (a :: rest)
  end.
