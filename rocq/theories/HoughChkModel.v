(** * The searches of HoughPlaneDetector and HoughLineDetector on the peak finder with checked int arithmetic
      (geometry/src/hough_plane_detector.cpp 238-336, hough_line_detector.cpp 134-192).

    The functions of HoughModel.v with [detect_chk] of IntervalChkModel.v, in which a signed overflow is [UB], in place of [detect]. *)
From Coq Require Import List ZArith Bool Reals.
From Verif Require Import Base IntervalModel PeakModel IntervalChkModel HoughModel.
Import ListNotations.
Open Scope Z_scope.
Open Scope outcome_scope.

(** findSpectrumMax, hough_plane_detector.cpp 238-249. *)
Definition findSpectrumMax_chk (d : plane) (out : list (list Z)) : outcome (list (list Z)) :=
  let! m := detect_chk Z.gtb (gval (hs d)) (mkI [0; 0] [tnum d; pnum d]) [twin d; pwin d] None in
  Ret (out ++ m).
(** The search along rho, 261-281 and 306-322. *)
Definition rho_maxima_chk (d : plane) (it ip : Z) : outcome (list (list Z)) :=
  let! _ := mapM (fun ir => grid_get (ht d) [it; ip; ir]) (zrange (rnum d)) in
  let! m := detect_chk Z.gtb (fun ix => gval (ht d) (it :: ip :: ix)) (mkI [0] [rnum d]) [rwin d] None in
  Ret (map (fun r => it :: ip :: r) m).
(** 261-281. *)
Definition findParallelPlanes_chk (d : plane) (it ip : Z) : outcome (list (list Z)) := rho_maxima_chk d it ip.
(** The loop 308-322. *)
Fixpoint rows_chk (d : plane) (l : list (list Z)) : outcome (list (list Z)) :=
  match l with
  | [] => Ret []
  | [a; b] :: r => let! m := rho_maxima_chk d a b in let! ms := rows_chk d r in Ret (m ++ ms)
  | _ => UB
  end.
(** findPlanes 293-325. *)
Definition findPlanes_chk (sort : list (list Z) -> list (list Z)) (d : plane) (hyp : list (list Z)) : outcome (list (list Z)) :=
  let! m := findSpectrumMax_chk d [] in
  let! l := rows_chk d m in
  let all := hyp ++ l in
  let! _ := mapM (grid_get (ht d)) all in
  Ret (sort all).

(** findSpectrumIndicesMax, hough_line_detector.cpp 134-143. *)
Definition line_spectrumMax_chk (d : line) (out : list (list Z)) : outcome (list (list Z)) :=
  let! m := detect_chk Z.gtb (lhs_val d) (mkI [0] [ltnum d]) [ltwin d] None in Ret (out ++ m).
(** The loop of findLines, 179-191. *)
Fixpoint line_rows_chk (d : line) (l : list (list Z)) : outcome (list (list Z)) :=
  match l with
  | [] => Ret []
  | [a] :: r =>
    let! m := detect_chk Z.gtb (fun ix => gval (lht d) (a :: ix)) (mkI [0] [lrnum d]) [lrwin d] None in
    let! ms := line_rows_chk d r in Ret (map (fun i => a :: i) m ++ ms)
  | _ => UB
  end.
(** findLines(std::vector<Indices2>&), 170-192. *)
Definition findLines_chk (d : line) (out : list (list Z)) : outcome (list (list Z)) :=
  let! m := line_spectrumMax_chk d [] in let! l := line_rows_chk d m in Ret (out ++ l).
