(** Programs that call the functions with function-static tables one after another. *)
From Coq Require Import ZArith List Bool Reals.
From Verif Require Import Base ZQ RQ Core GSum Matrix DFT Encode LinTrans Bootstrap.
Import ListNotations.
Open Scope Z_scope.

(** the function-static tables of all instances: of fftNR and ifftNR by LOGN, of CoeffToSlot and SlotToCoeff by LOGQ,
    LOGN, LOGDELTA, G *)
Record statics := mkstatics { s_fft : Z -> tables; s_ifft : Z -> tables; s_cts : Z -> Z -> Z -> Z -> tables; s_stc : Z -> Z -> Z -> Z -> stables }.
Definition no_statics : statics := mkstatics (fun _ => None) (fun _ => None) (fun _ _ _ _ => None) (fun _ _ _ _ => None).
Definition set1 {A} (f : Z -> A) (a : Z) (v : A) : Z -> A := fun x => if x =? a then v else f x.
Definition set4 {A} (f : Z -> Z -> Z -> Z -> A) (a b c d : Z) (v : A) : Z -> Z -> Z -> Z -> A := set1 f a (set1 (f a) b (set1 (f a b) c (set1 (f a b c) d v))).
Definition set_fft (s : statics) LOGN t := mkstatics (set1 (s_fft s) LOGN t) (s_ifft s) (s_cts s) (s_stc s).
Definition set_ifft (s : statics) LOGN t := mkstatics (s_fft s) (set1 (s_ifft s) LOGN t) (s_cts s) (s_stc s).
Definition set_cts (s : statics) a b c d t := mkstatics (s_fft s) (s_ifft s) (set4 (s_cts s) a b c d t) (s_stc s).
Definition set_stc (s : statics) a b c d t := mkstatics (s_fft s) (s_ifft s) (s_cts s) (set4 (s_stc s) a b c d t).

(** calls with their template parameters and arguments *)
Inductive pcall :=
| PFft (LOGN : Z) (m zr zi : rarr) | PFftNR (LOGN : Z) (m zr zi : rarr) | PIfft (LOGN : Z) (zr zi m : rarr) | PIfftNR (LOGN : Z) (zr zi m : rarr)
| PEncode (LOGQ LOGN : Z) (zr zi : rarr) (Delta : Z) (pt : poly) | PDecode (LOGQ LOGN : Z) (pt : poly) (Delta : Z) (zr zi : rarr)
| PDecodeLog (LOGQ LOGN : Z) (pt : poly) (LOGDELTA : Z) (zr zi : rarr)
| PLinear (LOGQ LOGN LOGDELTA SZ : Z) (Ar Ai : sd Rops) (ct : sq) (s : arr) (Act : sq)
| PGrouped (LOGQ LOGN LOGDELTA SZ D G : Z) (Ar Ai : list (sd Rops)) (ct : sq) (s : arr) (Act : sq)
| PCoeffToSlot (LOGQ LOGN LOGDELTA G : Z) (ct : sq) (s : arr) (ct0 ct1 : sq)
| PSlotToCoeff (LOGQ LOGN LOGDELTA G : Z) (ct0 ct1 : sq) (s : arr) (ct_ : sq).
Definition logn (c : pcall) : Z :=
  match c with
  | PFft l _ _ _ | PFftNR l _ _ _ | PIfft l _ _ _ | PIfftNR l _ _ _ | PEncode _ l _ _ _ _ | PDecode _ l _ _ _ _ | PDecodeLog _ l _ _ _ _ | PLinear _ l _ _ _ _ _ _ _
  | PGrouped _ l _ _ _ _ _ _ _ _ _ | PCoeffToSlot _ l _ _ _ _ _ _ | PSlotToCoeff _ l _ _ _ _ _ _ => l
  end.
(** what a call writes *)
Inductive pout := OArrays (l : list rarr) | OPoly (p : poly) | OCiphers (l : list sq).

Section Run.
Context (RM : Z) (rnd : nat -> Z).
(** one call, with the statics [s] and the number [pos] of results of rand() used so far *)
Definition pstep (s : statics) (pos : nat) (c : pcall) : res (statics * nat * pout) :=
  match c with
  | PFft l m zr zi => '(t, (a, b)) <- fft l (s_fft s l) m zr zi ;; Ok (set_fft s l t, pos, OArrays [a; b])
  | PFftNR l m zr zi => '(t, (a, b)) <- fftNR l (s_fft s l) m zr zi ;; Ok (set_fft s l t, pos, OArrays [a; b])
  | PIfft l zr zi m => '(t, a) <- ifft l (s_ifft s l) zr zi m ;; Ok (set_ifft s l t, pos, OArrays [a])
  | PIfftNR l zr zi m => '(t, a) <- ifftNR l (s_ifft s l) zr zi m ;; Ok (set_ifft s l t, pos, OArrays [a])
  | PEncode Q l zr zi Delta pt => '(t, p) <- encode Q l (s_ifft s l) zr zi Delta pt ;; Ok (set_ifft s l t, pos, OPoly p)
  | PDecode Q l pt Delta zr zi => '(t, (a, b)) <- decode Q l (s_fft s l) pt Delta zr zi ;; Ok (set_fft s l t, pos, OArrays [a; b])
  | PDecodeLog Q l pt LD zr zi => '(t, (a, b)) <- decode_log Q l (s_fft s l) pt LD zr zi ;; Ok (set_fft s l t, pos, OArrays [a; b])
  | PLinear Q l LD SZ Ar Ai ct sk Act => '(t, pos, c) <- linear_transform Q l LD RM rnd SZ (s_ifft s l) pos Ar Ai ct sk Act ;; Ok (set_ifft s l t, pos, OCiphers [c])
  | PGrouped Q l LD SZ D G Ar Ai ct sk Act =>
      '(t, pos, c) <- grouped_lt Q l LD RM rnd SZ D G (s_ifft s l) pos Ar Ai ct sk Act ;; Ok (set_ifft s l t, pos, OCiphers [c])
  | PCoeffToSlot Q l LD G ct sk ct0 ct1 =>
      '(u, t, pos, c0, c1) <- CoeffToSlot Q l LD RM rnd G (s_cts s Q l LD G) (s_ifft s l) pos ct sk ct0 ct1 ;;
      Ok (set_cts (set_ifft s l t) Q l LD G u, pos, OCiphers [c0; c1])
  | PSlotToCoeff Q l LD G ct0 ct1 sk ct_ =>
      '(u, t, pos, c) <- SlotToCoeff Q l LD RM rnd G (s_stc s Q l LD G) (s_ifft s l) pos ct0 ct1 sk ct_ ;;
      Ok (set_stc (set_ifft s l t) Q l LD G u, pos, OCiphers [c])
  end.
(** the calls one after another: what they write *)
Fixpoint prun (s : statics) (pos : nat) (cs : list pcall) : res (list pout) :=
  match cs with
  | [] => Ok []
  | c :: cs => '(s, pos, a) <- pstep s pos c ;; rest <- prun s pos cs ;; Ok (a :: rest)
  end.
(** the same calls, each of them with statics that were never used before *)
Fixpoint pfresh (pos : nat) (cs : list pcall) : res (list pout) :=
  match cs with
  | [] => Ok []
  | c :: cs => '(_, pos, a) <- pstep no_statics pos c ;; rest <- pfresh pos cs ;; Ok (a :: rest)
  end.
End Run.
