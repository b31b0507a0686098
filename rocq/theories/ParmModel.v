(** The values of the parameters of the parameter database: the evaluation on a
   grid (/repo/parmdb/Parm.cc), the rescaling of polynomials
   (/repo/parmdb/ParmValue.cc) and the grid made from the arguments of the user
   (/repo/parmdb/ParmFacadeLocal.cc, ParmFacade.h).

   Simplifications, for all definitions below:
   - numbers are exact (rationals), see AxisModel;
   - perturbed values, errors, row ids and the writing of values are left out;
   - AxisMappingCache gives the mapping of the two axes: a mapping does not change
     after it has been made. *)
From Coq Require Import Qcanon List Arith Lia Bool QArith Qround.
From Verif Require Import QcUtil AverageModel GainModel InfoModel BeamModel AxisModel.
Import ListNotations.
Open Scope Qc_scope.
Open Scope nat_scope.

(** A two-dimensional casacore array, the first index varies fastest.
   itsValues, /repo/parmdb/ParmValue.h:137. *)
Record array := Array { nx : nat; ny : nat; data : list Qc }.

(** An element of it. /repo/parmdb/ParmValue.cc:122 (coeff(ix, iy)). *)
Definition elem (a : array) (i j : nat) : Qc := nth (j * nx a + i) (data a) 0%Qc.

(** The array with these elements.  /repo/parmdb/ParmValue.cc:119. *)
Definition build (n m : nat) (f : nat -> nat -> Qc) : array :=
  Array n m (flat_map (fun j => map (fun i => f i j) (seq 0 n)) (seq 0 m)).

(** Pascal's triangle: pascal j i is i over j.  Zero is what the code fills in for
   j > i.  /repo/parmdb/ParmValue.cc:145-155 (fillPascal). *)
Fixpoint pascal (j i : nat) : Qc :=
  match j, i with
  | 0, _ => 1%Qc
  | S _, 0 => 0%Qc
  | S j', S i' => if j' <=? i' then (pascal j' i' + pascal j i')%Qc else 0%Qc
  end.

(** scoeff(jx, jy) += v.  /repo/parmdb/ParmValue.cc:126. *)
Definition add_at (m : nat -> nat -> Qc) (jx jy : nat) (v : Qc) : nat -> nat -> Qc :=
  fun x y => if (x =? jx) && (y =? jy) then (m x y + v)%Qc else m x y.

(** The loop over jx, from ix down to 0.  /repo/parmdb/ParmValue.cc:125-128. *)
Fixpoint loop_x (offx : Qc) (ix jy jx : nat) (offpx : Qc) (m : nat -> nat -> Qc) : nat -> nat -> Qc :=
  let m := add_at m jx jy (pascal jx ix * offpx)%Qc in
  match jx with
  | 0 => m
  | S j => loop_x offx ix jy j (offpx * offx)%Qc m
  end.

(** The loop over jy, from iy down to 0.  /repo/parmdb/ParmValue.cc:123-130. *)
Fixpoint loop_y (offx offy : Qc) (ix iy jy : nat) (offpy : Qc) (m : nat -> nat -> Qc) : nat -> nat -> Qc :=
  let m := loop_x offx ix jy ix (pascal jy iy * offpy)%Qc m in
  match jy with
  | 0 => m
  | S j => loop_y offx offy ix iy j (offpy * offy)%Qc m
  end.

(** The loops over iy and ix.  /repo/parmdb/ParmValue.cc:119-132. *)
Definition shifted (offx offy : Qc) (c : array) : nat -> nat -> Qc :=
  fold_left (fun m iy =>
    fold_left (fun m ix => loop_y offx offy ix iy iy (elem c ix iy) m) (seq 0 (nx c)) m)
    (seq 0 (ny c)) (fun _ _ => 0%Qc).

(** ParmValue::scale2.  The factor scx is scalex^ix * scaley^iy when element
   (ix, iy) is scaled; the assert of line 118 (less than 10 coefficients in both
   directions) becomes a hypothesis of the theorems.
   /repo/parmdb/ParmValue.cc:107-143. *)
Definition scale2 (c : array) (offx offy scalex scaley : Qc) : array :=
  let m := shifted offx offy c in
  build (nx c) (ny c) (fun ix iy => (m ix iy * (scaley ^ iy * scalex ^ ix))%Qc).

(** A Box: lower x, lower y, upper x and upper y.  /repo/parmdb/Box.h:140-142. *)
Record box := Box { lower_x : Qc; lower_y : Qc; upper_x : Qc; upper_y : Qc }.

(** Box::empty.  /repo/parmdb/Box.h:105-108. *)
Definition empty_box (b : box) : bool :=
  near (lower_x b) (upper_x b) || near (lower_y b) (upper_y b).

(** ParmValue::rescale: the new coefficients.  /repo/parmdb/ParmValue.cc:72-95. *)
Definition rescale (c : array) (sx ex sy ey : Qc) (old : box) : array :=
  if empty_box old || (nx c * ny c =? 1) ||
     ((nx c =? 1) && near sy (lower_y old) && near ey (upper_y old)) ||
     ((ny c =? 1) && near sx (lower_x old) && near ex (upper_x old))
  then c
  else
    let s1x := (upper_x old - lower_x old)%Qc in
    let s1y := (upper_y old - lower_y old)%Qc in
    scale2 c ((sx - lower_x old) / s1x)%Qc ((sy - lower_y old) / s1y)%Qc
           ((ex - sx) / s1x)%Qc ((ey - sy) / s1y)%Qc.

(** A ParmValue: the axes of its grid, and its values.
   /repo/parmdb/ParmValue.h:136-137. *)
Record parm_value := ParmValue { grid_x : list cell; grid_y : list cell; values : array }.

(** A ParmValueSet: is it a scalar, the axes of the domain grid, the values, the
   default value and the domain on which the default is scaled.
   /repo/parmdb/ParmValue.h:246-254. *)
Record value_set := ValueSet {
  scalar : bool;
  domain_x : list cell;
  domain_y : list cell;
  parm_values : list parm_value;
  def_value : parm_value;
  scale_domain : box
}.

(** ParmValueSet::createValues, for a polynomial: the default is copied to each
   domain of the grid, and rescaled.  It is called by setSolveGrid if the domain
   grid is the default one.  /repo/parmdb/ParmValue.cc:235-255. *)
Definition create_values (s : value_set) (gx gy : list cell) : value_set :=
  ValueSet (scalar s) gx gy
    (flat_map (fun cy => map (fun cx =>
       let d := def_value s in
       if empty_box (scale_domain s) then d
       else ParmValue (grid_x d) (grid_y d)
              (rescale (values d) (fst cx) (snd cx) (fst cy) (snd cy) (scale_domain s))) gx) gy)
    (def_value s) (scale_domain s).

(** The loop over the coefficients of x, from the highest down.
   /repo/parmdb/Parm.cc:303-308. *)
Fixpoint horner (c : nat -> Qc) (x : Qc) (i : nat) (subval : Qc) : Qc :=
  match i with
  | 0 => (subval + c 0%nat)%Qc
  | S k => horner c x k ((subval + c i) * x)%Qc
  end.

(** The value of a polynomial.  The coefficients are found by counting on from the
   first one.  /repo/parmdb/Parm.cc:296-312. *)
Definition polynomial (a : array) (x y : Qc) : Qc :=
  snd (fold_left (fun '(yp, val) j =>
         (yp * y, val + yp * horner (fun i => elem a i j) x (nx a - 1) 0)%Qc)
       (seq 0 (ny a)) (1, 0)%Qc).

(** Parm::getResultCoeff: the values of a polynomial.  The coefficients of the
   default are used where there is no domain.  /repo/parmdb/Parm.cc:260-316. *)
Definition result_coeff (s : value_set) (px py : list cell) : array :=
  let '(mapx, _, cenx) := axis_mapping px (domain_x s) in
  let '(mapy, _, ceny) := axis_mapping py (domain_y s) in
  Array (length px) (length py)
    (flat_map (fun '(my, vy) => map (fun '(mx, vx) =>
       polynomial
         (values (nth (mx + my * length (domain_x s)) (parm_values s) (def_value s))) vx vy)
       (List.combine mapx cenx)) (List.combine mapy ceny)).

(** Parm::getResultScalar for a single ParmValue with an array of scalars.
   /repo/parmdb/Parm.cc:372-398. *)
Definition result_single (v : parm_value) (px py : list cell) : outcome array :=
  let '(mapx, _, _) := axis_mapping px (grid_x v) in
  let '(mapy, _, _) := axis_mapping py (grid_y v) in
  let! rows := each (fun my =>
    each (fun mx => get (data (values v)) (mx + my * length (grid_x v))) mapx) mapy in
  Ok (Array (length px) (length py) (concat rows)).

(** A loop of which the body can throw. /repo/parmdb/Parm.cc:463-472. *)
Fixpoint loop {S A} (f : S -> A -> outcome S) (l : list A) (s : S) : outcome S :=
  match l with [] => Ok s | x :: l => let! s := f s x in loop f l s end.

(** One turn of the inner loop of fillArrayPV: the value of the cell of the
   ParmValue in which the center of the predict cell ix lies is put in the result.
   The state is the result, of which the elements are None as long as they are not
   set, and the hint for the search.  /repo/parmdb/Parm.cc:469-470. *)
Definition fill_cell (v : parm_value) (px : list cell) (nrx iy iny : nat)
  (st : list (option Qc) * nat) (ix : nat) : outcome (list (option Qc) * nat) :=
  let! cx := get px ix in
  let! inx := locate (grid_x v) (center cx) true (snd st) in
  let! x := get (data (values v)) (iny * length (grid_x v) + inx) in
  Ok (set_nth (fst st) (iy * nrx + ix) (Some x), inx).

(** One turn of the outer loop; the state has the hints for both axes.
   /repo/parmdb/Parm.cc:463-472. *)
Definition fill_row (v : parm_value) (px py : list cell) (nrx stx endx : nat)
  (st : list (option Qc) * nat * nat) (iy : nat) : outcome (list (option Qc) * nat * nat) :=
  let '(res, inx, iny) := st in
  let! cy := get py iy in
  let! iny := locate (grid_y v) (center cy) true iny in
  let! r := loop (fill_cell v px nrx iy iny) (seq stx (endx - stx)) (res, inx) in
  Ok (fst r, snd r, iny).

(** Parm::fillArrayPV.  /repo/parmdb/Parm.cc:450-473. *)
Definition fill_array (v : parm_value) (px py : list cell) (nrx stx sty endx endy : nat)
  (res : list (option Qc)) : outcome (list (option Qc)) :=
  let! r := loop (fill_row v px py nrx stx endx) (seq sty (endy - sty)) (res, 0, 0) in
  Ok (fst (fst r)).

(** One turn of the loop over the borders of the x-axis; the state has the start of
   the part.  /repo/parmdb/Parm.cc:432-441. *)
Definition fill_part (s : value_set) (px py : list cell) (mapx : list nat) (my sty endy : nat)
  (st : list (option Qc) * nat) (endx : nat) : outcome (list (option Qc) * nat) :=
  let '(res, stx) := st in
  let! mx := get mapx stx in
  let! v := get (parm_values s) (mx + length (domain_x s) * my) in
  let! res := fill_array v px py (length px) stx sty endx endy res in
  Ok (res, endx).

(** One turn of the loop over the borders of the y-axis.
   /repo/parmdb/Parm.cc:429-443. *)
Definition fill_parts (s : value_set) (px py : list cell) (mapx bordersx mapy : list nat)
  (st : list (option Qc) * nat) (endy : nat) : outcome (list (option Qc) * nat) :=
  let '(res, sty) := st in
  let! my := get mapy sty in
  let! r := loop (fill_part s px py mapx my sty endy) bordersx (res, 0) in
  Ok (fst r, endy).

(** An element that has not been set has no defined value.
   /repo/parmdb/Parm.cc:412 (resize). *)
Definition is_set (o : option Qc) : outcome Qc := match o with Some x => Ok x | None => Undefined end.

(** Parm::getResultScalar for multiple ParmValues.  /repo/parmdb/Parm.cc:400-448. *)
Definition result_multi (s : value_set) (px py : list cell) : outcome array :=
  let '(mapx, bordersx, _) := axis_mapping px (domain_x s) in
  let '(mapy, bordersy, _) := axis_mapping py (domain_y s) in
  let! r := loop (fill_parts s px py mapx bordersx mapy) bordersy
              (repeat None (length px * length py), 0) in
  let! d := each is_set (fst r) in
  Ok (Array (length px) (length py) d).

(** Parm::getResult.  The size of an array without elements is zero; the first
   ParmValue is the default if there is none.  /repo/parmdb/Parm.cc:229-258. *)
Definition get_result (s : value_set) (px py : list cell) (empty_result : bool) : outcome array :=
  if empty_result && (length (parm_values s) =? 0) then Ok (Array 0 0 [])
  else if negb (scalar s) then Ok (result_coeff s px py)
  else if length (domain_x s) * length (domain_y s) =? 1 then
    let v := hd (def_value s) (parm_values s) in
    if length (grid_x v) * length (grid_y v) =? 1 then Ok (values v)
    else result_single v px py
  else result_multi s px py.

(** ParmFacadeLocal::doGetValues: the values of one parameter; None if it is not
   in the record that is given back.  A value of one element is spread over the
   grid.  /repo/parmdb/ParmFacadeLocal.cc:360-379. *)
Definition facade_values (s : value_set) (px py : list cell) (include_defaults : bool)
  : outcome (option array) :=
  let! r := get_result s px py (negb include_defaults) in
  match data r with
  | [] => Ok None
  | [x] => Ok (Some (Array (length px) (length py) (repeat x (length px * length py))))
  | _ => Ok (Some r)
  end.

(** max(1, int(span / step + 0.5)).  The conversion to int is towards zero: that
   is the floor, for if the number is negative the result is 1 in both cases.
   /repo/parmdb/ParmFacadeLocal.cc:171-175. *)
Definition count_steps (span step : Qc) : nat :=
  Z.to_nat (Z.max 1 (Qfloor (this (span / step + half)%Qc))).

(** One axis of the grid of getValues; def_step is the default step of the
   database.  /repo/parmdb/ParmFacadeLocal.cc:163-179. *)
Definition values_axis (v1 v2 step def_step : Qc) (start_end : bool) : axis :=
  let step := if qleb step 0%Qc then def_step else step in
  if start_end then regular_axis_to v1 v2 (count_steps (v2 - v1)%Qc step)
  else regular_axis v1 v2 (count_steps v2 step).

(** ParmFacade::getValuesMap: the grid on which the parameters are evaluated and
   whether the defaults are included.
   /repo/parmdb/ParmFacade.cc:66-72, ParmFacadeLocal.cc:158-181. *)
Definition values_map (fv1 fv2 fstep tv1 tv2 tstep : Qc) (steps : Qc * Qc)
  (start_end include_defaults : bool) : axis * axis * bool :=
  (values_axis fv1 fv2 fstep (fst steps) start_end,
   values_axis tv1 tv2 tstep (snd steps) start_end, include_defaults).

(** The conversion of a bool to a double.  /repo/parmdb/ParmFacade.h:97. *)
Definition double_of (b : bool) : Qc := if b then 1%Qc else 0%Qc.

(** ParmFacade::getValuesMap without steps.  It calls the function above with eight
   arguments of nine: asStartEnd is given as time step, includeDefaults as
   asStartEnd, and includeDefaults is left at false.
   /repo/parmdb/ParmFacade.h:92-98. *)
Definition values_map_default (fv1 fv2 tv1 tv2 : Qc) (steps : Qc * Qc)
  (start_end include_defaults : bool) : axis * axis * bool :=
  values_map fv1 fv2 0%Qc tv1 tv2 (double_of start_end) steps include_defaults false.
