(** Model of src/util/report.rs, src/util/report_manager.rs and
    src/util/boundary_reports.rs. *)
From Verif Require Import Base ModelUtil.
Local Open Scope N_scope.

(** report.rs:1-5 *)
Record report := Report { min_length : N }.
(** derived [PartialEq], report.rs:1 *)
Definition report_eqb (a b : report) : bool := min_length a =? min_length b.
(** report.rs:7-14: all arguments are ignored by the code. *)
Definition make_e_callback (report_ offset_adjust : N) (ekey : option N) (quiet : bool) : report :=
  Report 0.
(** report.rs:16-22 *)
Definition make_som_relative_callback (report_ offset_adjust distance : N) : report :=
  Report 0.

(** report_manager.rs:7-19 *)
Record ext_info := ExtInfo { ei_highlander : bool; ei_first_index : N }.

(** report_manager.rs:22-41; [rm_limit] is [grey.limit_report_count], the only
    part of the grey box the manager reads. *)
Record report_manager := ReportManager {
  rm_limit : N;
  report_ids : list report;
  internal_map : list (report * N);
  external_map : list (N * ext_info);
  exhaust_map : list (N * N);
  global_exhaust : bool
}.
(** report_manager.rs:44-53 *)
Definition rm_new (limit : N) : report_manager := ReportManager limit [] [] [] [] true.

(** report_manager.rs:86-88 *)
Definition num_reports (rm : report_manager) : N := N.of_nat (List.length (report_ids rm)).

(** report_manager.rs:56-74.  [len.try_into::<u32>().expect(..)] panics from
    2^32 on. *)
Definition get_internal_id (rm : report_manager) (ir : report)
  : outcome (report_manager * result compile_error N) :=
  match assoc report_eqb (internal_map rm) ir with
  | Some id => Ret (rm, ROk id)
  | None =>
    if rm_limit rm <=? num_reports rm then
      Ret (rm, RErr (error_new EResourceLimit (lit "Resource limit exceeded.")))
    else
      let size := N.of_nat (List.length (report_ids rm)) in
      if size <? 2 ^ 32 then
        Ret (ReportManager (rm_limit rm) (report_ids rm ++ [ir])
               (internal_map rm ++ [(ir, size)]) (external_map rm) (exhaust_map rm)
               (global_exhaust rm),
             ROk size)
      else Panic PExpect
  end.

(** report_manager.rs:81-83 *)
Definition get_report (rm : report_manager) (id : N) : outcome report :=
  if id <? num_reports rm then
    match nth_error (report_ids rm) (N.to_nat id) with
    | Some r => Ret r
    | None => Panic PIndex
    end
  else Panic PIndex.

(** the message of report_manager.rs:102-117 *)
Definition conflict_message (id : N) (ext eri : ext_info) : str :=
  lit "Expression (index " ++ show (ei_first_index ext) ++ lit ") with match ID " ++ show id
  ++ lit " " ++ (if ei_highlander ext then lit "specified " else lit "did not sepcify ")
  ++ lit " SINGLEMATCH whereas previous expression (index " ++ show (ei_first_index eri)
  ++ lit ") with the same match ID did"
  ++ (if ei_highlander eri then lit " not." else lit ".").

(** report_manager.rs:92-131 *)
Definition register_ext_report (rm : report_manager) (id : N) (ext : ext_info)
  : report_manager * result compile_error unit :=
  let finish em :=
    (ReportManager (rm_limit rm) (report_ids rm) (internal_map rm) em (exhaust_map rm)
       (if negb (ei_highlander ext) then false else global_exhaust rm),
     ROk tt) in
  match assoc N.eqb (external_map rm) id with
  | Some eri =>
    if negb (Bool.eqb (ei_highlander eri) (ei_highlander ext)) then
      (rm, RErr (error_with_index (ei_first_index ext) (conflict_message id ext eri)))
    else finish (external_map rm)
  | None => finish (external_map rm ++ [(id, ext)])
  end.

(** report_manager.rs:139-146; the map is keyed by the argument widened to
    i64, which is injective on u32. *)
Definition get_exhaustible_key (rm : report_manager) (a : N)
  : outcome (report_manager * N) :=
  let size := N.of_nat (List.length (exhaust_map rm)) in
  if size <? 2 ^ 32 then
    match assoc N.eqb (exhaust_map rm) a with
    | Some k => Ret (rm, k)
    | None =>
      Ret (ReportManager (rm_limit rm) (report_ids rm) (internal_map rm) (external_map rm)
             (exhaust_map rm ++ [(a, size)]) (global_exhaust rm), size)
    end
  else Panic PExpect.

(** boundary_reports.rs:5-15; never filled by the code. *)
Record boundary_reports := BoundaryReports {
  report_at_0 : list N; report_at_0_eod : list N; report_at_eod : list N }.
(** derived [Default], boundary_reports.rs:4 *)
Definition boundary_default : boundary_reports := BoundaryReports [] [] [].
