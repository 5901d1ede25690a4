(** Model of the two least squares solvers, libs/hdd/3rd-party/lsqr-lsmr/lsqr.cpp and lsmr.cpp.

    The arithmetic is an argument: any type of numbers with any operations (so also floating
    point numbers with infinities and NaN); comparisons are boolean. The matrix is the two
    products of lsqr.h 88-104, given by the caller. Arrays are lists, of sizes m and n.

    Left out: what is printed on the output stream (and alfopt, test1 and test2 before the
    loop, which are only printed), the standard errors (lsqr.cpp 331-334, 491-503 and 659-682, computed
    only if the flag is set, which nothing in the repository does) and the local
    reorthogonalisation (lsmr.cpp 353-360, 437-445, 448-456, only if localSize > 0, the
    constructor's 0 is never changed). The counter of iterations is a nat: it stops at the
    limit, an unsigned, hence does not wrap. *)
From Coq Require Import Reals.
From stdpp Require Import numbers list.
From Verif Require Import DDSystem_Model.

Section lsq.
Context {F : Type}.
Variable (f0 f1 fhuge ftiny : F).          (* 0.0, 1.0, 1e+100, 1e-30 *)
Variable (add sub mul div : F → F → F) (neg fabs fsqrt : F → F).
Variable (ltb leb : F → F → bool) (is0 : F → bool).   (* a < b, a <= b, x == 0.0 *)

(** lsqr.cpp 202-217, lsmr.cpp 212-227 *)
Definition d2norm (a b : F) : F :=
  let scale := add (fabs a) (fabs b) in
  if is0 scale then f0
  else
    let sa := div a scale in
    let sb := div b scale in
    mul scale (fsqrt (add (mul sa sa) (mul sb sb))).

(** lsqr.cpp 221-229, lsmr.cpp 231-239 *)
Definition scale (factor : F) (x : list F) : list F := (λ a, mul a factor) <$> x.

(** lsqr.cpp 232-266, lsmr.cpp 241-274: the state of the loop is the magnitude of the largest
    element and the scaled sum of squares *)
Definition nrm2_step (st : F * F) (xi : F) : F * F :=
  let '(mag, sum) := st in
  if is0 xi then st
  else
    let absxi := fabs xi in
    if ltb mag absxi then
      let dx := div mag absxi in (absxi, add (mul sum (mul dx dx)) f1)
    else
      let dx := div absxi mag in (mag, add sum (mul dx dx)).
Definition dnrm2 (x : list F) : F :=
  let '(mag, sum) := fold_left nrm2_step x (f0, f1) in mul mag (fsqrt sum).

(** std::max and std::min *)
Definition fmax (a b : F) : F := if ltb a b then b else a.
Definition fmin (a b : F) : F := if ltb b a then b else a.
Definition sqr (x : F) : F := mul x x.

(** The members set by the setters (solver.cpp 857-864) *)
Record opts := Opts { o_damp : F; o_atol : F; o_btol : F; o_conlim : F; o_itnlim : nat }.

Variable (aprod1 aprod2 : list F → list F → list F).
(** aprod1 x y is y + A x; aprod2 x y is x + A' y *)
Variable (o : opts).

Definition damped : bool := ltb f0 (o_damp o).
Definition ctol : F := if ltb f0 (o_conlim o) then div f1 (o_conlim o) else f0.

(** The next step of the bidiagonalisation, lsqr.cpp 428-452 (without Anorm, 436-438) and
    lsmr.cpp 428-464: beta*u = A*v - alpha*u, alpha*v = A'*u - beta*v *)
Definition bidiag (u v : list F) (alpha : F) : list F * list F * F * F :=
  let u := aprod1 v (scale (neg alpha) u) in
  let beta := dnrm2 u in
  if ltb f0 beta then
    let u := scale (div f1 beta) u in
    let v := aprod2 (scale (neg beta) v) u in
    let alpha := dnrm2 v in
    (u, if ltb f0 alpha then scale (div f1 alpha) v else v, alpha, beta)
  else (u, v, alpha, beta).

(** ** lsqr.cpp 274-697 *)
Record lsqr := Lsqr {
  q_itn : nat; q_istop : nat; q_nstop : nat;
  q_u : list F; q_v : list F; q_w : list F; q_x : list F;
  q_alpha : F; q_beta : F; q_rhobar : F; q_phibar : F;
  q_dnorm : F; q_res2 : F; q_psi : F; q_xnorm1 : F; q_cs2 : F; q_sn2 : F; q_z : F;
  q_anorm : F; q_acond : F; q_rnorm : F; q_arnorm : F; q_xnorm : F; q_bnorm : F; q_dxmax : F; q_maxdx : nat }.

(** 289-371. The members rnorm and bnorm keep the value of the constructor (0.0) if the
    function returns at 355-365. *)
Definition lsqr_start (m n : nat) (b : list F) : lsqr :=
  let zeros := replicate n f0 in
  let beta := dnrm2 b in
  let '(u, v, alpha) :=
    if ltb f0 beta then
      let u := scale (div f1 beta) b in
      let v := aprod2 zeros u in (u, v, dnrm2 v)
    else (b, zeros, f0) in
  let '(v, w) := if ltb f0 alpha then let v := scale (div f1 alpha) v in (v, v) else (v, zeros) in
  let arnorm := mul alpha beta in
  let r := if is0 arnorm then f0 else beta in
  Lsqr 0 0 0 u v w zeros alpha beta alpha beta f0 f0 f0 f0 (neg f1) f0 f0 f0 f0 r arnorm f0 r f0 0.

(** 577-590: the stopping reason after the tests *)
Definition lsqr_reason (itn : nat) (t1 t2 t3 test1 test2 test3 rtol : F) : nat :=
  let istop := 0 in
  let istop := if decide (o_itnlim o ≤ itn) then 5 else istop in
  let istop := if leb t3 f1 then 4 else istop in
  let istop := if leb t2 f1 then 2 else istop in
  let istop := if leb t1 f1 then 1 else istop in
  let istop := if leb test3 ctol then 4 else istop in
  let istop := if leb test2 (o_atol o) then 2 else istop in
  if leb test1 rtol then 1 else istop.

(** 458-467: elimination of the damping parameter *)
Definition damping (rhobar psi phibar : F) : F * F * F :=
  if damped then
    let rhbar1 := d2norm rhobar (o_damp o) in
    let cs1 := div rhobar rhbar1 in
    let sn1 := div (o_damp o) rhbar1 in
    (rhbar1, mul sn1 phibar, mul cs1 phibar)
  else (rhobar, psi, phibar).

(** 419-650: an iteration *)
Definition lsqr_step (s : lsqr) : lsqr :=
  let itn := S (q_itn s) in
  let '(u, v, alpha, beta) := bidiag (q_u s) (q_v s) (q_alpha s) in
  let temp := d2norm (d2norm (q_alpha s) beta) (o_damp o) in
  let anorm := d2norm (q_anorm s) temp in
  let '(rhbar1, psi, phibar) := damping (q_rhobar s) (q_psi s) (q_phibar s) in
  let rho := d2norm rhbar1 beta in
  let cs := div rhbar1 rho in
  let sn := div beta rho in
  let theta := mul sn alpha in
  let rhobar := mul (neg cs) alpha in
  let phi := mul cs phibar in
  let phibar := mul sn phibar in
  let tau := mul sn phi in
  let t1 := div phi rho in
  let t2 := div (neg theta) rho in
  let t3 := div f1 rho in
  let x := zip_with (λ t x, add (mul t1 t) x) (q_w s) (q_x s) in
  let w := zip_with (λ t v, add (mul t2 t) v) (q_w s) v in
  let dknorm := fold_left (λ d t, add (mul (mul t3 t) (mul t3 t)) d) (q_w s) f0 in
  let dknorm := fsqrt dknorm in
  let dnorm := d2norm (q_dnorm s) dknorm in
  let dxk := fabs (mul phi dknorm) in
  let '(dxmax, maxdx) := if ltb (q_dxmax s) dxk then (dxk, itn) else (q_dxmax s, q_maxdx s) in
  let delta := mul (q_sn2 s) rho in
  let gambar := mul (neg (q_cs2 s)) rho in
  let rhs := sub phi (mul delta (q_z s)) in
  let zbar := div rhs gambar in
  let xnorm := d2norm (q_xnorm1 s) zbar in
  let gamma := d2norm gambar theta in
  let cs2 := div gambar gamma in
  let sn2 := div theta gamma in
  let z := div rhs gamma in
  let xnorm1 := d2norm (q_xnorm1 s) z in
  let acond := mul anorm dnorm in
  let res2 := d2norm (q_res2 s) psi in
  let rnorm := add (d2norm res2 phibar) ftiny in
  let arnorm := mul alpha (fabs tau) in
  let test1 := div rnorm (q_bnorm s) in
  let test2 := div arnorm (mul anorm rnorm) in
  let test3 := div f1 acond in
  let t1 := div test1 (add f1 (div (mul anorm xnorm) (q_bnorm s))) in
  let rtol := add (o_btol o) (div (mul (mul (o_atol o) anorm) xnorm) (q_bnorm s)) in
  let istop := lsqr_reason itn (add f1 t1) (add f1 test2) (add f1 test3) test1 test2 test3 rtol in
  let '(istop, nstop) :=
    if decide (istop = 0) then (istop, 0)
    else
      let nstop := S (q_nstop s) in
      (if decide (nstop < 1 ∧ itn < o_itnlim o) then 0 else istop, nstop) in
  Lsqr itn istop nstop u v w x alpha beta rhobar phibar dnorm res2 psi xnorm1 cs2 sn2 z anorm acond rnorm arnorm xnorm (q_bnorm s) dxmax maxdx.

(** 417-652: do ... while (istop == 0). The first argument only makes the recursion
    structural: None is "more iterations than that". *)
Fixpoint lsqr_loop (fuel : nat) (s : lsqr) : option lsqr :=
  match fuel with
  | O => None
  | S fuel => let s' := lsqr_step s in if decide (q_istop s' = 0) then lsqr_loop fuel s' else Some s'
  end.
(** 355-365, 690-697 *)
Definition lsqr_set_istop (s : lsqr) (k : nat) : lsqr :=
  Lsqr (q_itn s) k (q_nstop s) (q_u s) (q_v s) (q_w s) (q_x s) (q_alpha s) (q_beta s) (q_rhobar s) (q_phibar s) (q_dnorm s) (q_res2 s) (q_psi s) (q_xnorm1 s) (q_cs2 s) (q_sn2 s) (q_z s) (q_anorm s) (q_acond s) (q_rnorm s) (q_arnorm s) (q_xnorm s) (q_bnorm s) (q_dxmax s) (q_maxdx s).
Definition lsqr_end (s : lsqr) : lsqr :=
  if damped && bool_decide (q_istop s = 2) then lsqr_set_istop s 3 else s.
Definition lsqr_solve (fuel : nat) (m n : nat) (b : list F) : option lsqr :=
  let s := lsqr_start m n b in
  if is0 (q_arnorm s) then Some (lsqr_end s) else lsqr_end <$> lsqr_loop fuel s.

(** ** lsmr.cpp 281-616 *)
Record lsmr := Lsmr {
  r_itn : nat; r_istop : nat;
  r_u : list F; r_v : list F; r_h : list F; r_hbar : list F; r_x : list F;
  r_alpha : F; r_beta : F; r_zetabar : F; r_alphabar : F; r_rho : F; r_rhobar : F; r_cbar : F; r_sbar : F;
  r_betadd : F; r_betad : F; r_rhodold : F; r_tautildeold : F; r_thetatilde : F; r_zeta : F; r_d : F;
  r_normA2 : F; r_maxrbar : F; r_minrbar : F;
  r_normA : F; r_condA : F; r_normr : F; r_normAr : F; r_normx : F; r_normb : F }.

(** 308-399. The array w (311, 322, 342) is not used. The product at 326 is with x = 0. The
    members normb and normr keep the value of the constructor if the function returns at 350. *)
Definition lsmr_start (m n : nat) (b : list F) : lsmr :=
  let zeros := replicate n f0 in
  let u := scale (neg f1) (aprod1 zeros (scale (neg f1) b)) in
  let beta := dnrm2 u in
  let '(u, v, alpha) :=
    if ltb f0 beta then
      let u := scale (div f1 beta) u in
      let v := aprod2 zeros u in (u, v, dnrm2 v)
    else (u, zeros, f0) in
  let v := if ltb f0 alpha then scale (div f1 alpha) v else v in
  let normAr := mul alpha beta in
  let r := if is0 normAr then f0 else beta in
  Lsmr 0 0 u v v zeros zeros alpha beta (mul alpha beta) alpha f1 f1 f1 f0
       beta f0 f1 f0 f0 f0 f0 (mul alpha alpha) f0 fhuge f0 f0 r normAr f0 r.

(** 569-578 *)
Definition lsmr_reason (itn : nat) (t1 test1 test2 test3 rtol : F) : nat :=
  let istop := 0 in
  let istop := if decide (o_itnlim o ≤ itn) then 7 else istop in
  let istop := if leb (add f1 test3) f1 then 6 else istop in
  let istop := if leb (add f1 test2) f1 then 5 else istop in
  let istop := if leb (add f1 t1) f1 then 4 else istop in
  let istop := if leb test3 ctol then 3 else istop in
  let istop := if leb test2 (o_atol o) then 2 else istop in
  if leb test1 rtol then 1 else istop.

(** 420-578: an iteration *)
Definition lsmr_step (s : lsmr) : lsmr :=
  let itn := S (r_itn s) in
  let '(u, v, alpha, beta) := bidiag (r_u s) (r_v s) (r_alpha s) in
  let alphahat := d2norm (r_alphabar s) (o_damp o) in
  let chat := div (r_alphabar s) alphahat in
  let shat := div (o_damp o) alphahat in
  let rhoold := r_rho s in
  let rho := d2norm alphahat beta in
  let c := div alphahat rho in
  let sn := div beta rho in
  let thetanew := mul sn alpha in
  let alphabar := mul c alpha in
  let rhobarold := r_rhobar s in
  let zetaold := r_zeta s in
  let thetabar := mul (r_sbar s) rho in
  let rhotemp := mul (r_cbar s) rho in
  let rhobar := d2norm (mul (r_cbar s) rho) thetanew in
  let cbar := div (mul (r_cbar s) rho) rhobar in
  let sbar := div thetanew rhobar in
  let zeta := mul cbar (r_zetabar s) in
  let zetabar := mul (neg sbar) (r_zetabar s) in
  let kh := div (mul thetabar rho) (mul rhoold rhobarold) in
  let hbar := zip_with (λ h hb, sub h (mul kh hb)) (r_h s) (r_hbar s) in
  let kx := div zeta (mul rho rhobar) in
  let x := zip_with (λ x hb, add x (mul kx hb)) (r_x s) hbar in
  let k := div thetanew rho in
  let h := zip_with (λ v h, sub v (mul k h)) v (r_h s) in
  let betaacute := mul chat (r_betadd s) in
  let betacheck := mul (neg shat) (r_betadd s) in
  let betahat := mul c betaacute in
  let betadd := mul (neg sn) betaacute in
  let thetatildeold := r_thetatilde s in
  let rhotildeold := d2norm (r_rhodold s) thetabar in
  let ctildeold := div (r_rhodold s) rhotildeold in
  let stildeold := div thetabar rhotildeold in
  let thetatilde := mul stildeold rhobar in
  let rhodold := mul ctildeold rhobar in
  let betad := add (mul (neg stildeold) (r_betad s)) (mul ctildeold betahat) in
  let tautildeold := div (sub zetaold (mul thetatildeold (r_tautildeold s))) rhotildeold in
  let taud := div (sub zeta (mul thetatilde tautildeold)) rhodold in
  let d := add (r_d s) (mul betacheck betacheck) in
  let normr := fsqrt (add (add d (sqr (sub betad taud))) (sqr betadd)) in
  let normA2 := add (r_normA2 s) (sqr beta) in
  let normA := fsqrt normA2 in
  let normA2 := add normA2 (sqr alpha) in
  let maxrbar := fmax (r_maxrbar s) rhobarold in
  let minrbar := if decide (1 < itn) then fmin (r_minrbar s) rhobarold else r_minrbar s in
  let condA := div (fmax maxrbar rhotemp) (fmin minrbar rhotemp) in
  let normAr := fabs zetabar in
  let normx := dnrm2 x in
  let test1 := div normr (r_normb s) in
  let test2 := div normAr (mul normA normr) in
  let test3 := div f1 condA in
  let t1 := div test1 (add f1 (div (mul normA normx) (r_normb s))) in
  let rtol := add (o_btol o) (div (mul (mul (o_atol o) normA) normx) (r_normb s)) in
  let istop := lsmr_reason itn t1 test1 test2 test3 rtol in
  Lsmr itn istop u v h hbar x alpha beta zetabar alphabar rho rhobar cbar sbar
       betadd betad rhodold tautildeold thetatilde zeta d normA2 maxrbar minrbar
       normA condA normr normAr normx (r_normb s).

(** 345-351, 419-613 *)
Fixpoint lsmr_loop (fuel : nat) (s : lsmr) : option lsmr :=
  match fuel with
  | O => None
  | S fuel => let s' := lsmr_step s in if decide (r_istop s' = 0) then lsmr_loop fuel s' else Some s'
  end.
Definition lsmr_solve (fuel : nat) (m n : nat) (b : list F) : option lsmr :=
  let s := lsmr_start m n b in
  if is0 (r_normAr s) then Some s else lsmr_loop fuel s.
End lsq.

(** ** Exact arithmetic

    The real numbers. A division by zero and the square root of a negative number have no
    value there: they give the results of arbitrary functions, so what is proved for all of
    them does not depend on such an operation. *)
Definition r_div (jdiv : R → R → R) (a b : R) : R := if r_is0 b then jdiv a b else (a / b)%R.
Definition r_sqrt (jsqrt : R → R) (x : R) : R := if Rlt_dec x 0 then jsqrt x else R_sqrt.sqrt x.
Definition r_ltb (a b : R) : bool := if Rlt_dec a b then true else false.
Definition r_leb (a b : R) : bool := if Rle_dec a b then true else false.
Section exact.
Variable (jdiv : R → R → R) (jsqrt : R → R).
Variable (aprod1 aprod2 : list R → list R → list R) (o : opts (F := R)).
Definition R_d2norm : R → R → R := d2norm 0%R Rplus Rmult (r_div jdiv) Rabs (r_sqrt jsqrt) r_is0.
Definition R_dnrm2 : list R → R := dnrm2 0%R 1%R Rplus Rmult (r_div jdiv) Rabs (r_sqrt jsqrt) r_ltb r_is0.
Definition R_lsqr_step : lsqr → lsqr :=
  lsqr_step 0%R 1%R (1 / 10 ^ 30)%R Rplus Rminus Rmult (r_div jdiv) Ropp Rabs (r_sqrt jsqrt) r_ltb r_leb r_is0 aprod1 aprod2 o.
Definition R_lsqr_solve : nat → nat → nat → list R → option lsqr :=
  lsqr_solve 0%R 1%R (1 / 10 ^ 30)%R Rplus Rminus Rmult (r_div jdiv) Ropp Rabs (r_sqrt jsqrt) r_ltb r_leb r_is0 aprod1 aprod2 o.
Definition R_lsmr_step : lsmr → lsmr :=
  lsmr_step 0%R 1%R Rplus Rminus Rmult (r_div jdiv) Ropp Rabs (r_sqrt jsqrt) r_ltb r_leb r_is0 aprod1 aprod2 o.
Definition R_lsmr_solve : nat → nat → nat → list R → option lsmr :=
  lsmr_solve 0%R 1%R (10 ^ 100)%R Rplus Rminus Rmult (r_div jdiv) Ropp Rabs (r_sqrt jsqrt) r_ltb r_leb r_is0 aprod1 aprod2 o.
End exact.
