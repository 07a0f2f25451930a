(** Model of the numeric helpers of include/util/util.h. *)
From Coq Require Import ZArith List Bool.
From Verif Require Import Base.
Import ListNotations.
Open Scope Z_scope.

(** util.h:13-20 log; [int] arithmetic, so [n *= 2] is undefined on overflow.  At most 31 rounds
    happen before that. *)
Definition log_ (N : Z) : res Z :=
  '(i, _) <- while_ 40 (fun '(i, n) => Ok (n <? N))
               (fun '(i, n) => n' <- int_ (n * 2) ;; Ok (i + 1, n')) (0, 1) ;;
  Ok i.

(** 32-bit unsigned shifts. *)
Definition shl32 (a k : Z) : res Z :=
  if (0 <=? k) && (k <? 32) then Ok (Z.shiftl a k mod 2 ^ 32) else Undef.
Definition shr32 (a k : Z) : res Z :=
  if (0 <=? k) && (k <? 32) then Ok (Z.shiftr a k) else Undef.

(** util.h:22-28 bitReverse32.  All shift counts are literals below 32, so the shifts are written
    directly; [<<] discards the bits shifted out of the 32-bit word. *)
Definition bitReverse32 (x : Z) : Z :=
  let sl a k := Z.shiftl a k mod 2 ^ 32 in
  let sr a k := Z.shiftr a k in
  let x := Z.lor (sr (Z.land x 2863311530 (* 0xaaaaaaaa *)) 1) (sl (Z.land x 1431655765 (* 0x55555555 *)) 1) in
  let x := Z.lor (sr (Z.land x 3435973836 (* 0xcccccccc *)) 2) (sl (Z.land x 858993459 (* 0x33333333 *)) 2) in
  let x := Z.lor (sr (Z.land x 4042322160 (* 0xf0f0f0f0 *)) 4) (sl (Z.land x 252645135 (* 0x0f0f0f0f *)) 4) in
  let x := Z.lor (sr (Z.land x 4278255360 (* 0xff00ff00 *)) 8) (sl (Z.land x 16711935 (* 0x00ff00ff *)) 8) in
  Z.lor (sr x 16) (sl x 16).

(** util.h:30-32 bitReverse; the shift count [32 - digits] must lie in [0,32). *)
Definition bitReverse (x digits : Z) : res Z := shr32 (bitReverse32 x) (32 - digits).

(** util.h:34-40 rand_uint64.  [RAND_MAX] is the implementation's constant and [rnd] the successive
    results of rand(); five rounds (i = 0,15,30,45,60). *)
Definition rand_uint64 (RAND_MAX : Z) (rnd : nat -> Z) (pos : nat) : Z * nat :=
  let step r k := wadd (wmul r (wadd RAND_MAX 1)) (rnd (pos + k)%nat) in
  (fold_left step [0; 1; 2; 3; 4]%nat 0, (pos + 5)%nat).
