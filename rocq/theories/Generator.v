(** Model of the outer layer of src/UnicycleGenerator.cpp: stored foot prints, plug-in generators, measured steps. *)
From Coq Require Import String Reals List Bool.
From Verif Require Import Prelude FootPrint Ellipse GenPhases FeetTraj FeetSpline ZMP CoMHeight DCM.
Import ListNotations.
Open Scope R_scope.

(** What a getter finds: nothing yet, a complete result, or one that a failed computation has partly overwritten. *)
Inductive slot (A : Type) : Type := Never | Have (a : A) | Torn.
Arguments Never {A}. Arguments Have {A} a. Arguments Torn {A}.

(** The DCM generator: its configuration and the member initialState, src/DCMTrajectoryGenerator.cpp:19, which
    setDCMInitialState (:122-129) and computeNewTrajectories (:49-62) write and getDCMInitialState (:131-137) returns, also
    after it has been used; [None] while it has never been written. *)
Record dcmst : Type := MkDM { dm_cfg : dcfg; dm_st : option (vec2 * vec2) }.
Definition dm_vel (d : dcmst) : option vec2 := option_map snd (dm_st d).
Definition dm_new : dcmst := MkDM dc_new None.
Definition dm_call (d : dcmst) (o : dop) : dcmst :=
  MkDM (dc_run (dm_cfg d) o) (match o with DInit p v => Some (p, v) | _ => dm_st d end).
(** src/DCMTrajectoryGenerator.cpp:49-62: without a given state the stored one is overwritten, before anything is
    checked. *)
Definition dm_start (d : dcmst) (left right : footprint) : option (vec2 * vec2) :=
  match dc_init (dm_cfg d), fp_steps left, fp_steps right with
  | None, l0 :: _, r0 :: _ =>
      Some (mid (vadd (st_pos l0) (dc_offL (dm_cfg d))) (vadd (st_pos r0) (dc_offR (dm_cfg d))), vzero)
  | _, _, _ => dm_st d
  end.

(** src/UnicycleGenerator.cpp:20-46 with the results stored in the plug-ins.  The foot prints are the objects pointed to;
    a user who keeps a pointer to them and changes them behind the back of the generator is not modelled.
    [gn_cub]: FeetCubicSplineGenerator, [gn_feet]: FeetMinimumJerkGenerator. *)
Record gen : Type := MkGen {
  gn_set : gset; gn_left : footprint; gn_right : footprint;
  gn_feet : option feetcfg; gn_zmp : option zcfg; gn_dcm : option dcmst; gn_com : option hcfg;
  gn_ph : slot genout; gn_feetO : slot (list sample * list sample); gn_zmpO : slot zout; gn_dcmO : slot dout; gn_comO : slot (list pva);
  gn_cub : option feetcfg; gn_cubO : slot (list sample * list sample)
}.
(** src/UnicycleGenerator.cpp:324-336. *)
Definition gen_new : gen :=
  MkGen gset_new (MkFP [] "left") (MkFP [] "right") None None None None Never Never Never Never Never None Never.

Definition with_set (s : gset) (g : gen) : gen :=
  let '(MkGen _ l r f z d h a b c e i j k) := g in MkGen s l r f z d h a b c e i j k.
Definition with_fps (l r : footprint) (g : gen) : gen :=
  let '(MkGen s _ _ f z d h a b c e i j k) := g in MkGen s l r f z d h a b c e i j k.
Definition with_feet (f : option feetcfg) (g : gen) : gen :=
  let '(MkGen s l r _ z d h a b c e i j k) := g in MkGen s l r f z d h a b c e i j k.
Definition with_zmp (z : option zcfg) (g : gen) : gen :=
  let '(MkGen s l r f _ d h a b c e i j k) := g in MkGen s l r f z d h a b c e i j k.
Definition with_dcm (d : option dcmst) (g : gen) : gen :=
  let '(MkGen s l r f z _ h a b c e i j k) := g in MkGen s l r f z d h a b c e i j k.
Definition with_com (h : option hcfg) (g : gen) : gen :=
  let '(MkGen s l r f z d _ a b c e i j k) := g in MkGen s l r f z d h a b c e i j k.
Definition with_ph (a : slot genout) (g : gen) : gen :=
  let '(MkGen s l r f z d h _ b c e i j k) := g in MkGen s l r f z d h a b c e i j k.
Definition with_feetO (b : slot (list sample * list sample)) (g : gen) : gen :=
  let '(MkGen s l r f z d h a _ c e i j k) := g in MkGen s l r f z d h a b c e i j k.
Definition with_zmpO (c : slot zout) (g : gen) : gen :=
  let '(MkGen s l r f z d h a b _ e i j k) := g in MkGen s l r f z d h a b c e i j k.
Definition with_dcmO (e : slot dout) (g : gen) : gen :=
  let '(MkGen s l r f z d h a b c _ i j k) := g in MkGen s l r f z d h a b c e i j k.
Definition with_comO (i : slot (list pva)) (g : gen) : gen :=
  let '(MkGen s l r f z d h a b c e _ j k) := g in MkGen s l r f z d h a b c e i j k.

Definition with_cub (j : option feetcfg) (g : gen) : gen :=
  let '(MkGen s l r f z d h a b c e i _ k) := g in MkGen s l r f z d h a b c e i j k.
Definition with_cubO (k : slot (list sample * list sample)) (g : gen) : gen :=
  let '(MkGen s l r f z d h a b c e i j _) := g in MkGen s l r f z d h a b c e i j k.

(** How a call ends. *)
Inductive outcome : Type := Done | Refused | Undefined.
Definition andthen (x : gen * outcome) (k : gen -> gen * outcome) : gen * outcome :=
  match snd x with Done => k (fst x) | o => (fst x, o) end.

(** Setters, src/UnicycleGenerator.cpp:548-632, 665-724, and those of the plug-ins.  A plug-in's setter needs the
    plug-in to be attached. *)
Inductive gev : Type :=
| GSet (o : gop) | GAddCub | GAddFeet | GAddZmp | GAddDcm | GAddCom
| GCub (o : feetop) | GFeet (o : feetop) | GZmp (o : zop) | GDcm (o : dop) | GCom (nom delta : R).
Definition attach {A : Type} (x : A) (o : option A) : option A := match o with None => Some x | _ => o end.
Definition gn_call (g : gen) (e : gev) : gen :=
  match e with
  | GSet o => with_set (gset_run (gn_set g) o) g
  | GAddCub => with_cub (attach feet_new (gn_cub g)) g
  | GAddFeet => with_feet (attach feet_new (gn_feet g)) g
  | GAddZmp => with_zmp (attach z_new (gn_zmp g)) g
  | GAddDcm => with_dcm (attach dm_new (gn_dcm g)) g
  | GAddCom => with_com (attach h_new (gn_com g)) g
  | GCub o => with_cub (option_map (fun c => fst (feet_call c o)) (gn_cub g)) g
  | GFeet o => with_feet (option_map (fun c => fst (feet_call c o)) (gn_feet g)) g
  | GZmp o => with_zmp (option_map (fun c => z_call c o) (gn_zmp g)) g
  | GDcm o => with_dcm (option_map (fun c => dm_call c o) (gn_dcm g)) g
  | GCom n d => with_com (option_map (fun c => fst (h_set c n d)) (gn_com g)) g
  end.

(** The splines of the cubic feet generator, see FeetSpline.v. *)
Record swing_splines : Type := MkSw { sw2 : R -> R -> R -> R -> pva; sw3 : R -> R -> R -> R -> R -> R -> R -> pva }.
Section Generate.
(** External cubic splines, see ZMP.v and CoMHeight.v. *)
Variable spl : R -> R -> R -> R -> R -> R -> pva.
Variable hspl : R -> R -> R -> R -> pva.
Variable fspl : swing_splines.

(** src/UnicycleGenerator.cpp:365-391, the checks that precede any computation. *)
Definition gen_checks (left right : footprint) (init dT : R) : bool :=
  negb (Nat.ltb (fp_number left) 1) && negb (Nat.ltb (fp_number right) 1) && negb (String.eqb (fp_name left) (fp_name right))
  && negb (Rleb dT 0)
  && match fp_steps left, fp_steps right with
     | l0 :: _, r0 :: _ => negb (Rltb init (Rmax (st_time l0) (st_time r0)))
     | _, _ => false
     end.

(** src/UnicycleGenerator.cpp:413-419. *)
Definition run_cubic (dT : R) (left right : footprint) (out : genout) (g : gen) : gen * outcome :=
  match gn_cub g with
  | None => (g, Done)
  | Some c =>
      match spline_compute (sw2 fspl) (sw3 fspl) c dT (fp_steps left) (fp_steps right) (ph_left (go_ph out)) (ph_right (go_ph out)) (ph_shift (go_ph out)) with
      | Ok o => (with_cubO (Have o) g, Done)
      | Fail => (with_cubO Torn g, Refused)
      | UB => (with_cubO Torn g, Undefined)
      end
  end.
(** src/UnicycleGenerator.cpp:421-427. *)
Definition run_feet (dT : R) (left right : footprint) (out : genout) (g : gen) : gen * outcome :=
  match gn_feet g with
  | None => (g, Done)
  | Some c =>
      let P := go_ph out in
      match feet_compute c dT (fp_steps left) (fp_steps right) (ph_left P) (ph_right P) (ph_shift P) with
      | Ok o => (with_feetO (Have o) g, Done)
      | Fail => (with_feetO Torn g, Refused)
      | UB => (with_feetO Torn g, Undefined)
      end
  end.
(** src/UnicycleGenerator.cpp:429-437. *)
Definition run_zmp (init dT : R) (left right : footprint) (out : genout) (g : gen) : gen * outcome :=
  match gn_zmp g with
  | None => (g, Done)
  | Some c =>
      match zmp_compute spl c (ztimes_of (gn_set g)) init dT left right (map t_step (go_ord out)) (go_ph out) with
      | Ok (o, c') => (with_zmpO (Have o) (with_zmp (Some c') g), Done)
      | Fail => (with_zmpO Torn g, Refused)
      | UB => (with_zmpO Torn g, Undefined)
      end
  end.
(** src/UnicycleGenerator.cpp:439-446. *)
Definition run_dcm (init dT : R) (left right : footprint) (out : genout) (g : gen) : gen * outcome :=
  match gn_dcm g with
  | None => (g, Done)
  | Some d =>
      match dcm_compute (dm_cfg d) (ztimes_of (gn_set g)) init dT left right (map t_step (go_ord out)) (go_ph out) with
      | Ok (o, c') => (with_dcmO (Have o) (with_dcm (Some (MkDM c' (dm_start d left right))) g), Done)
      | Fail => (with_dcmO Torn (with_dcm (Some (MkDM (dm_cfg d) (dm_start d left right))) g), Refused)
      | UB => (with_dcmO Torn (with_dcm (Some (MkDM (dm_cfg d) (dm_start d left right))) g), Undefined)
      end
  end.
(** src/UnicycleGenerator.cpp:448-453. *)
Definition run_com (dT : R) (out : genout) (g : gen) : gen * outcome :=
  match gn_com g with
  | None => (g, Done)
  | Some c =>
      match height_compute hspl c dT (ph_left (go_ph out)) (ph_shift (go_ph out)) with
      | Ok o => (with_comO (Have o) g, Done)
      | Fail => (with_comO Torn g, Refused)
      | UB => (with_comO Torn g, Undefined)
      end
  end.

(** src/UnicycleGenerator.cpp:357-456, generateFromFootPrints; [srt]: outcome of the sort. *)
Definition generate_from (g : gen) (left right : footprint) (init dT : R) (srt : list tstep) : gen * outcome :=
  let g := with_fps left right g in
  if negb (gen_checks left right init dT) then (g, Refused)
  else match generate_phases (gn_set g) left right init dT srt with
       | Fail => (with_ph Torn g, Refused)
       | UB => (with_ph Torn g, Undefined)
       | Ok out =>
           andthen (run_cubic dT left right out (with_ph (Have out) g)) (fun g =>
           andthen (run_feet dT left right out g) (fun g =>
           andthen (run_zmp init dT left right out g) (fun g =>
           andthen (run_dcm init dT left right out g) (fun g =>
           run_com dT out g))))
       end.

(** ** Measured steps *)
(** src/UnicycleGenerator.cpp:228-237.  iDynTree (external): the yaw of the product of the two rotations about the
    vertical is atan2 of its first column, Rotation::asRPY. *)
Definition edit_step (input measured : step) : step :=
  let a := st_angle input in let m := st_angle measured in
  MkStep (st_pos measured)
         (a + atan2 (cos a * sin m - sin a * cos m) (cos a * cos m + sin a * sin m))
         (st_time measured) (st_name input).

(** src/UnicycleGenerator.cpp:239-244. *)
Inductive correction : Type := CLeft | CRight | CBoth | CNone.
Definition corr_left (k : correction) : bool := match k with CLeft | CBoth => true | _ => false end.
Definition corr_right (k : correction) : bool := match k with CRight | CBoth => true | _ => false end.

(** What UnicyclePlanner::computeNewSteps (modelled in Planner.v) does to the foot prints; it may change them and fail. *)
Variable plan : footprint -> footprint -> R -> R -> footprint * footprint * bool.
(** Value of the comparison with the uninitialised velocity when no initial DCM state has ever been set. *)
Variable garbage : bool.

(** src/UnicycleGenerator.cpp:260. *)
Definition should_reset (g : gen) : bool :=
  match gn_dcm g with
  | None => false
  | Some d => match dm_vel d with Some v => Rltb (vnorm v) (1 / 100000) | None => garbage end
  end.

(** src/UnicycleGenerator.cpp:266-287: the steps that replace the present ones. *)
Definition edited (init : R) (reset : bool) (k : correction) (pl pr mL mR : step) : step * step :=
  let el := if corr_left k then edit_step pl mL else pl in
  let er := if corr_right k then edit_step pr mR else pr in
  let late := Rgtb (st_time el) init || Rgtb (st_time er) init in
  let tl := if reset then Rmax (st_time pl) (st_time pr) else if late then st_time pl else st_time el in
  let tr := if reset then Rmax (st_time pl) (st_time pr) else if late then st_time pr else st_time er in
  (MkStep (st_pos el) (st_angle el) tl (st_name el), MkStep (st_pos er) (st_angle er) tr (st_name er)).

(** clearSteps followed by addStep, src/UnicycleGenerator.cpp:289-303. *)
Definition replace_by (s : step) (fp : footprint) : footprint * bool := fp_addStep' s (fp_clear fp).

(** src/UnicycleGenerator.cpp:246-320, computeNewStepsFromMeasuredSteps.  After keepOnlyPresentStep there is a last step. *)
Definition replan (g : gen) (init tend : R) (mL mR : step) (k : correction) : gen * bool :=
  let (l, okl) := fp_keepPresent init (gn_left g) in
  if negb okl then (with_fps l (gn_right g) g, false)
  else
    let (r, okr) := fp_keepPresent init (gn_right g) in
    if negb okr then (with_fps l r g, false)
    else match fp_getLast l, fp_getLast r with
         | Some pl, Some pr =>
             let reset := should_reset g in
             let corr := match k with CNone => reset | _ => true end in
             let (el, er) := edited init reset k pl pr mL mR in
             let (l1, ok1) := if corr && (corr_left k || reset) then replace_by el l else (l, true) in
             if negb ok1 then (with_fps l1 r g, false)
             else
               let (r1, ok2) := if corr && (corr_right k || reset) then replace_by er r else (r, true) in
               if negb ok2 then (with_fps l1 r1 g, false)
               else
                 let '(l2, r2, okp) := plan l1 r1 init tend in
                 let g := with_fps l2 r2 g in
                 if negb okp then (g, false)
                 else (if corr then with_zmp (option_map (fun z => z_call z (ZPrev pl pr)) (gn_zmp g)) g else g, true)
         | _, _ => (with_fps l r g, false)
         end.

(** src/UnicycleGenerator.cpp:458-469, generate; single-threaded. *)
Definition generate (g : gen) (init dT tend : R) (srt : list tstep) : gen * outcome :=
  let '(l, r, ok) := plan (gn_left g) (gn_right g) init tend in
  let g := with_fps l r g in
  if negb ok then (g, Refused) else generate_from g l r init dT srt.

(** src/UnicycleGenerator.cpp:471-546, the four reGenerate methods; single-threaded. *)
Definition regenerate (g : gen) (init dT tend : R) (mL mR : step) (k : correction) (srt : list tstep) : gen * outcome :=
  let (g, ok) := replan g init tend mL mR k in
  if negb ok then (g, Refused) else generate_from g (gn_left g) (gn_right g) init dT srt.
End Generate.

(** src/UnicycleGenerator.cpp:498-546: measurements without a time are given a time after the initial time. *)
Definition untimed (init : R) (pos : vec2) (angle : R) (name : string) : step := MkStep pos angle (init + 1) name.

(** ** Sequences of calls by one user (one thread) *)
Inductive call : Type :=
| KCfg (e : gev)
| KFrom (left right : footprint) (init dT : R) (srt : list tstep)
| KGen (plan : footprint -> footprint -> R -> R -> footprint * footprint * bool) (init dT tend : R) (srt : list tstep)
| KRe (plan : footprint -> footprint -> R -> R -> footprint * footprint * bool) (garbage : bool)
      (init dT tend : R) (mL mR : step) (k : correction) (srt : list tstep).
Section Session.
Variable spl : R -> R -> R -> R -> R -> R -> pva.
Variable hspl : R -> R -> R -> R -> pva.
Variable fspl : swing_splines.
Definition perform (g : gen) (c : call) : gen * outcome :=
  match c with
  | KCfg e => (gn_call g e, Done)
  | KFrom l r i d s => generate_from spl hspl fspl g l r i d s
  | KGen p i d t s => generate spl hspl fspl p g i d t s
  | KRe p gb i d t mL mR k s => regenerate spl hspl fspl p gb g i d t mL mR k s
  end.
(** State after the calls and how each of them ended; stops at undefined behaviour. *)
Fixpoint session (g : gen) (cs : list call) : option (gen * list outcome) :=
  match cs with
  | [] => Some (g, [])
  | c :: r =>
      let (g', o) := perform g c in
      match o with
      | Undefined => None
      | _ => match session g' r with Some (h, os) => Some (h, o :: os) | None => None end
      end
  end.
End Session.
