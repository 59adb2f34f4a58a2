(** Model of the tools: the output file (gsStructuralAnalysisUtils.h, gsStructuralAnalysisOutput)
    and the geometries of gsPanelCreator.hpp. *)
From Coq Require Export String Bool Reals List Lra Lia Arith.
Export ListNotations.
Local Open Scope R_scope.

(** ** Output file *)
(** a cell: a header, or a value printed with that many significant digits *)
Inductive cell := Head (point : option nat) (name : string) | Val (x : R) (digits : nat).
(** the file: finished rows and the cells of the row that is being written (cells are followed by
    a comma, rows by an end of line) *)
Record file := mkF { f_rows : list (list cell); f_cur : list cell }.
Definition fempty : file := mkF [] [].
Definition fput (c : list cell) (f : file) : file := mkF (f_rows f) (f_cur f ++ c).
Definition fnl (f : file) : file := mkF (f_rows f ++ [f_cur f]) [].
(** the object: number of points (columns of m_points, 0 without points), m_precision,
    m_nPointHeaders, m_nOtherHeaders, and the file on disk; [o_debug]: GISMO_ASSERT is active *)
Record outp := mkO { o_points : nat; o_prec : nat; o_nP : nat; o_nO : nat; o_file : file }.
(** the constructors l.24-40; the file may exist *)
Definition outNew (points : nat) (f : file) : outp := mkO points 5 0 0 f.
(** clean l.42-47 *)
Definition outClean (s : outp) : outp := mkO (o_points s) (o_prec s) (o_nP s) (o_nO s) fempty.
(** setPrecision l.146 *)
Definition outPrec (n : nat) (s : outp) : outp := mkO (o_points s) n (o_nP s) (o_nO s) (o_file s).
(** init l.99-114 with _initPointHeader l.49-57 and _initOtherHeader l.59-66 *)
Definition outInit (ph oh : list string) (s : outp) : outp :=
  let f := fput (flat_map (fun p => map (Head (Some p)) ph) (seq 0 (o_points s))) fempty in
  let f := fput (map (Head None) oh) f in
  mkO (o_points s) (o_prec s) (length ph) (length oh) (fnl f).
(** add l.122-137 with _writePointData l.68-76, _writeOtherData l.78-85: [pts] the columns of the
    matrix (all of the length [rows]). The precision is set in a stream that is closed before
    anything is written; the data go through new streams with the default of six digits. None: the
    assertion fails (only with [debug]). *)
Definition outAdd (debug : bool) (rows : nat) (pts : list (list R)) (other : list R) (s : outp) : option outp :=
  if debug && negb ((rows =? o_nP s)%nat && (length other =? o_nO s)%nat) then None else
  let f := fput (flat_map (map (fun x => Val x 6)) pts) (o_file s) in
  let f := fput (map (fun x => Val x 6) other) f in
  Some (mkO (o_points s) (o_prec s) (o_nP s) (o_nO s) (fnl f)).

(** ** Panels: gsPanelCreator.hpp *)
Definition pt : Type := R * R * R.
(** a bilinear patch: its four control points, the first parameter runs first; sides 1 (west),
    2 (east), 3 (south), 4 (north) as in gismo's boundary::side *)
Record patch := mkP { c0 : pt; c1 : pt; c2 : pt; c3 : pt }.
Definition sideOf (s : nat) (p : patch) : option (pt * pt) :=
  match s with 1 => Some (c0 p, c2 p) | 2 => Some (c1 p, c3 p) | 3 => Some (c0 p, c1 p) | 4 => Some (c2 p, c3 p) | _ => None end%nat.
(** a multi-patch: patches and the interfaces declared by the code; computeTopology and
    addAutoBoundaries (which find interfaces from coinciding corners) are library functions and
    left out *)
Record mpatch := mkM { m_patches : list patch; m_faces : list (nat * nat * (nat * nat)) }.
Definition ptMap (f : pt -> pt) (p : patch) : patch := mkP (f (c0 p)) (f (c1 p)) (f (c2 p)) (f (c3 p)).
(** coefs().col(0).array() += x, and so on *)
Definition shiftPt (x y z : R) (q : pt) : pt := let '(a, b, c) := q in (a + x, b + y, c + z).
Definition swapPt (q : pt) : pt := let '(a, b, c) := q in (b, a, c).
Definition mMap (f : pt -> pt) (m : mpatch) : mpatch := mkM (map (ptMap f) (m_patches m)) (m_faces m).
(** result.addPatch of every patch of the parts, interfaces of the parts are not copied *)
Definition mJoin (l : list mpatch) : mpatch := mkM (flat_map m_patches l) [].
(** Plate l.28-43 *)
Definition Plate (Lp Wp x y z : R) : mpatch := mkM [mkP (x, y, z) (Lp + x, y, z) (x, Wp + y, z) (Lp + x, Wp + y, z)] [].
(** Strip l.46-61 *)
Definition Strip (Lb Hw x y z : R) : mpatch := mkM [mkP (x, y, z) (Lb + x, y, z) (x, y, Hw + z) (Lb + x, y, Hw + z)] [].
(** IBeam l.64-95 *)
Definition IBeam (Lb Hw Wf x y z : R) : mpatch :=
  mMap (shiftPt x y z) (mJoin [Strip Lb Hw 0 0 (- Hw / 2); Plate Lb (Wf / 2) 0 0 (Hw / 2); Plate Lb (Wf / 2) 0 (- Wf / 2) (Hw / 2);
    Plate Lb (Wf / 2) 0 0 (- Hw / 2); Plate Lb (Wf / 2) 0 (- Wf / 2) (- Hw / 2)]).
(** TBeam l.98-130 *)
Definition TBeam (Lb Hw Wf x y z : R) : mpatch :=
  mMap (shiftPt x y z) (mJoin [Strip Lb Hw 0 0 0; Plate Lb (Wf / 2) 0 0 Hw; Plate Lb (Wf / 2) 0 (- Wf / 2) Hw]).
(** LBeam l.133-160: declares the interface (0, side 4) - (1, side 1) *)
Definition LBeam (Lb Hw Wf x y z : R) : mpatch :=
  let m := mMap (shiftPt x y z) (mJoin [Strip Lb Hw 0 0 0; Plate Lb Wf 0 0 Hw]) in
  mkM (m_patches m) [((0, 4), (1, 1))]%nat.
(** PanelT l.163-202 *)
Definition PanelT (Lp Wp Hw Wf x y z : R) : mpatch :=
  mMap (shiftPt x y z) (mJoin [Plate Lp (Wp / 2) 0 0 0; Plate Lp (Wp / 2) 0 (- Wp / 2) 0; TBeam Lp Hw Wf 0 0 0]).
(** PanelStrip l.205-227 *)
Definition PanelStrip (Lp Wp Hw x y z : R) : mpatch :=
  mMap (shiftPt x y z) (mJoin [Plate Lp (Wp / 2) 0 0 0; Plate Lp (Wp / 2) 0 (- Wp / 2) 0; Strip Lp Hw 0 0 0]).
(** PanelL l.230-254 *)
Definition PanelL (Lp Wp Hw Wf x y z : R) : mpatch :=
  mMap (shiftPt x y z) (mJoin [Plate Lp (Wp / 2) 0 (- Wp / 2) 0; Plate Lp Wf 0 0 0; Plate Lp (Wp / 2 - Wf) 0 Wf 0; LBeam Lp Hw Wf 0 0 0]).
(** PlateGirderL l.257-332: the origin is not used *)
Definition PlateGirderL (Lp Wp Hwg Wfg Hws Wfs x y z : R) : mpatch :=
  mJoin [Plate (Lp / 2) (Wp / 2) 0 (- Wp / 2) 0; Plate (Lp / 2) Wfs 0 0 0; Plate (Lp / 2) (Wp / 2 - Wfs) 0 Wfs 0;
    Plate (Lp / 2) (Wp / 2) (- Lp / 2) (- Wp / 2) 0; Plate (Lp / 2) Wfs (- Lp / 2) 0 0; Plate (Lp / 2) (Wp / 2 - Wfs) (- Lp / 2) Wfs 0;
    LBeam (Lp / 2) Hws Wfs 0 0 0; LBeam (Lp / 2) Hws Wfs (- Lp / 2) 0 0;
    mMap swapPt (TBeam Wfs (Hwg - Hws) Wfg 0 0 Hws);
    mMap (shiftPt 0 Wfs 0) (mMap swapPt (TBeam (Wp / 2 - Wfs) (Hwg - Hws) Wfg 0 0 Hws));
    mMap (shiftPt 0 (- (Wp / 2)) 0) (mMap swapPt (TBeam (Wp / 2) (Hwg - Hws) Wfg 0 0 Hws));
    mMap swapPt (Strip Wfs Hws 0 0 0);
    mMap (shiftPt 0 Wfs 0) (mMap swapPt (Strip (Wp / 2 - Wfs) Hws 0 0 0));
    mMap (shiftPt 0 (- (Wp / 2)) 0) (mMap swapPt (Strip (Wp / 2) Hws 0 0 0))].
