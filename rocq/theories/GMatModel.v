(** Template functions over square matrices: /repo/src/Math/Matrix.inl:763-876, and float4x4::Pivot.

    The C++ templates take the matrix class as a parameter and only use [Matrix::Rows], [Matrix::Cols], [mat[i][j]],
    [Row], [SetRow], [SwapRows] and [ScaleRow].  Here a matrix is the function from (row, column) to the element and the
    size [n] = Rows = Cols is a parameter (the code instantiates it with 3 and 4).  Reads never leave [0,n) x [0,n). *)
From Coq Require Import List PeanoNat Bool ZArith.
From Verif Require Import Num ScalarModel.
Import ListNotations.

Definition gmat (T : Type) := nat -> nat -> T.

Section GMat.
  Context {T : Type} `{NT : Num T}.
  Open Scope num_scope.
  Implicit Types m : gmat T.

  (** [mat[i][j] = x]. *)
  Definition gset m (i j : nat) (x : T) : gmat T := fun r c => if (Nat.eqb r i && Nat.eqb c j)%bool then x else m r c.
  (** SetRow (float3x3.cpp:481-502, float4x4.cpp:850-883). *)
  Definition gsetRow m (i : nat) (row : nat -> T) : gmat T := fun r c => if Nat.eqb r i then row c else m r c.
  (** SwapRows (float3x3.cpp:572-581, float4x4.cpp:1043-1058). *)
  Definition gswapRows m (a b : nat) : gmat T :=
    fun r c => if Nat.eqb r a then m b c else if Nat.eqb r b then m a c else m r c.
  (** ScaleRow (float3x3.cpp:447-455, float4x4.cpp:739-746). *)
  Definition gscaleRow m (a : nat) (s : T) : gmat T := gsetRow m a (fun c => m a c * s).
  (** [m.SetRow(i, m.Row(i) - m.Row(column) * s)]. *)
  Definition gsubRow m (i column : nat) (s : T) : gmat T := gsetRow m i (fun c => m i c - m column c * s).
  (** Matrix::identity, Matrix::zero. *)
  Definition gidentity : gmat T := fun r c => if Nat.eqb r c then n1 else n0.
  Definition gzero : gmat T := fun _ _ => n0.

  (** The loop over [for(int i = a; i < b; ++i)]. *)
  Definition range (a b : nat) : list nat := seq a (b - a).

  (** Matrix.inl:771-781: the row with the largest absolute value in this column, at or below the diagonal. *)
  Definition findPivot (n : nat) m (column : nat) : nat * T :=
    fold_left (fun '(greatest, greatestVal) i =>
                 let val := nabs (m i column) in
                 if val >? greatestVal then (i, val) else (greatest, greatestVal))
              (range (column + 1) n) (column, nabs (m column column)).

  (** Matrix.inl:802-812: subtract the pivot row from the rows in the list, from both matrices. *)
  Definition addRows (column : nat) (rows : list nat) (st : gmat T * gmat T) : gmat T * gmat T :=
    fold_left (fun '(mat, inversed) i =>
                 let s := mat i column in
                 (gsubRow mat i column s, gsubRow inversed i column s)) rows st.

  (** Matrix.inl:768-813: one column of Gauss-Jordan elimination; [false] when no pivot reaches epsilon. *)
  Definition elimStep (n : nat) (epsilon : T) (column : nat) (st : gmat T * gmat T) : bool * (gmat T * gmat T) :=
    let '(mat, inversed) := st in
    let '(greatest, greatestVal) := findPivot n mat column in
    if greatestVal <? epsilon then (false, st)
    else
      let '(mat, inversed) :=
        if Nat.eqb greatest column then (mat, inversed)
        else (gswapRows mat greatest column, gswapRows inversed greatest column) in
      let scale := n1 / mat column column in
      let inversed := gscaleRow inversed column scale in
      let mat := gscaleRow mat column scale in
      (true, addRows column (range (column + 1) n) (addRows column (range 0 column) (mat, inversed))).

  Fixpoint elimCols (n : nat) (epsilon : T) (cols : list nat) (st : gmat T * gmat T) : bool * (gmat T * gmat T) :=
    match cols with
    | [] => (true, st)
    | column :: cols' => let '(ok, st') := elimStep n epsilon column st in if ok then elimCols n epsilon cols' st' else (false, st')
    end.

  (** Matrix.inl:763-817 [InverseMatrix]: returned flag and the contents left in [mat]. *)
  Definition InverseMatrix (n : nat) (mat : gmat T) (epsilon : T) : bool * gmat T :=
    let '(ok, (_, inversed)) := elimCols n epsilon (range 0 n) (mat, gidentity) in (ok, inversed).

  (** Matrix.inl:830-835: row i of the upper factor. *)
  Definition luUpperRow (n : nat) (mat lower : gmat T) (i : nat) (upper : gmat T) : gmat T :=
    fold_left (fun upper col =>
                 fold_left (fun upper k => gset upper i col (upper i col - lower i k * upper k col)) (range 0 i)
                           (gset upper i col (mat i col)))
              (range i n) upper.

  (** Matrix.inl:836-844: column i of the lower factor. *)
  Fixpoint luLowerCol (mat upper : gmat T) (i : nat) (rows : list nat) (lower : gmat T) : bool * gmat T :=
    match rows with
    | [] => (true, lower)
    | row :: rows' =>
        let lower := fold_left (fun lower k => gset lower row i (lower row i - lower row k * upper k i)) (range 0 i)
                               (gset lower row i (mat row i)) in
        if EqualAbs (upper i i) n0 (nlit 1%Z 1000%positive) then (false, lower)
        else luLowerCol mat upper i rows' (gset lower row i (lower row i / upper i i))
    end.

  Fixpoint luRows (n : nat) (mat : gmat T) (is_ : list nat) (lu : gmat T * gmat T) : bool * (gmat T * gmat T) :=
    match is_ with
    | [] => (true, lu)
    | i :: is_' =>
        let '(lower, upper) := lu in
        let upper := luUpperRow n mat lower i upper in
        let '(ok, lower) := luLowerCol mat upper i (range (i + 1) n) lower in
        if ok then luRows n mat is_' (lower, upper) else (false, (lower, upper))
    end.

  (** Matrix.inl:823-847 [LUDecomposeMatrix]. *)
  Definition LUDecomposeMatrix (n : nat) (mat : gmat T) : bool * (gmat T * gmat T) :=
    luRows n mat (range 0 n) (gidentity, gzero).

  (** Matrix.inl:858-866: row i of the Cholesky factor left of the diagonal. *)
  Fixpoint cholRow (mat : gmat T) (i : nat) (js : list nat) (lower : gmat T) : bool * gmat T :=
    match js with
    | [] => (true, lower)
    | j :: js' =>
        let lower := fold_left (fun lower k => gset lower i j (lower i j - lower i k * lower j k)) (range 0 j)
                               (gset lower i j (mat i j)) in
        if EqualAbs (lower j j) n0 (nlit 1%Z 1000%positive) then (false, lower)
        else cholRow mat i js' (gset lower i j (lower i j / lower j j))
    end.

  Fixpoint cholRows (mat : gmat T) (is_ : list nat) (lower : gmat T) : bool * gmat T :=
    match is_ with
    | [] => (true, lower)
    | i :: is_' =>
        let '(ok, lower) := cholRow mat i (range 0 i) lower in
        if negb ok then (false, lower) else
        let lower := gset lower i i (mat i i) in
        if negb (lower i i =? n0) then (false, lower) else          (* Matrix.inl:869-870: if (lower[i][i]) return false; *)
        let lower := fold_left (fun lower k => gset lower i i (lower i i - lower i k * lower i k)) (range 0 i) lower in
        cholRows mat is_' (gset lower i i (nsqrt (lower i i)))
    end.

  (** Matrix.inl:853-876 [CholeskyDecomposeMatrix]. *)
  Definition CholeskyDecomposeMatrix (n : nat) (mat : gmat T) : bool * gmat T := cholRows mat (range 0 n) gzero.

  (** float4x4.cpp:1512-1541 [Pivot]: row echelon form, for Rows = Cols = n. *)
  Definition pivotCol (n : nat) (st : gmat T * nat) (col : nat) : gmat T * nat :=
    let '(m, rowIndex) := st in
    let greatest := fold_left (fun greatest i => if nabs (m i col) >? nabs (m greatest col) then i else greatest)
                              (range rowIndex n) rowIndex in
    if EqualAbs (m greatest col) n0 (nlit 1%Z 1000%positive) then (m, rowIndex)
    else
      let m := if Nat.eqb rowIndex greatest then m else gswapRows m rowIndex greatest in
      let m := gscaleRow m rowIndex (n1 / m rowIndex col) in
      let m := fold_left (fun m r => if Nat.eqb r rowIndex then m else gsubRow m r rowIndex (m r col)) (range 0 n) m in
      (m, S rowIndex).
  Definition Pivot (n : nat) (m : gmat T) : gmat T := fst (fold_left (pivotCol n) (range 0 n) (m, O)).
End GMat.
