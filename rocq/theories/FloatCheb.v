(** Model of convert_frc_tou (include/HEAAN/poly.h 548-562) in floating-point arithmetic (Float.v). *)
From Coq Require Import ZArith List Bool Reals.
From Verif Require Import Base GSum Matrix DFT Float.
Import ListNotations.
Open Scope Z_scope.

(** poly.h:548-562 convert_frc_tou, as in Poly.v; subtractions and doublings round *)
Fixpoint f_convert_frc_tou (F : fpu) (fuel : nat) (c : rarr) (u : rarr) (off N : Z) : res rarr :=
  match fuel with
  | O => Diverge
  | S fuel =>
      if N =? 4 then
        c0 <- grd c 0 ;; u <- gwr u off c0 ;;
        c1 <- grd c 1 ;; c3 <- grd c 3 ;; u <- gwr u (off + 1) (rnd F (c1 - c3)) ;;
        c2 <- grd c 2 ;; u <- gwr u (off + 2) c2 ;;
        c3 <- grd c 3 ;; gwr u (off + 3) (rnd F (c3 * 2))
      else
        let H := Z.quot N 2 in
        c0 <- for_ 0 H (fun i c0 => x <- grd c i ;; gwr c0 i x) (gfresh R H) ;;
        c1 <- for_ 0 H (fun i c1 => x <- grd c (i + H) ;; gwr c1 i x) (gfresh R H) ;;
        '(c0, c1) <- for_ 1 H (fun i '(c0, c1) =>
            x <- grd c0 (H - i) ;; y <- grd c1 i ;; c0 <- gwr c0 (H - i) (rnd F (x - y)) ;;
            y <- grd c1 i ;; c1 <- gwr c1 i (rnd F (y * 2)) ;; Ok (c0, c1)) (c0, c1) ;;
        u <- f_convert_frc_tou F fuel c0 u off H ;;
        f_convert_frc_tou F fuel c1 u (off + H) H
  end.
