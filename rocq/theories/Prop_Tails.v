(** Properties C63 and C64, exactly: what a server makes of the clauses at the end of the operands
    of a union, and which options of INTO OUTFILE it accepts.  Specification: SpecTails.v, SpecNested.v, SpecSays.v. *)
From Verif Require Import Base NumFmt Value Backend Render ParseArgs Build Queries History SpecLex SpecRef SpecLogic SpecClauses SpecWhole
  SpecSql SpecServer SpecNested SpecSays SpecTails PfTails Demo Prop_Nested.
Open Scope N_scope.

(** C63.  A union of any SELECTs, nested in any way, is accepted if and only if no SELECT but the
    last one has ORDER BY, LIMIT, OFFSET, INTO OUTFILE or FOR UPDATE; those of the last one are then
    clauses of the whole union.  So the operands keep their own clauses only if they have none. *)
Theorem C63_union_tails_partial : forall E x q l n ns, operands x q l ->
  query E (VSelect q) n -> Forall2 (fun p n => query E (VSelect (snd p)) n) l ns ->
  exists s, text E x = Ok s /\
    read_statement (dialect_of (e_be E)) s =
      if forallb no_clauses (removelast (n :: ns)) then Some (NSelect (joined n (List.combine (map (fun p => is_all (fst p)) l) ns))) else None.
Proof. exact union_read. Qed.
Print Assumptions C63_union_tails_partial.

(** C64.  Whatever the history of a select: with the file and the options it asks for last, the text is
    read as a statement with this file and these options, or, for the other combinations, not accepted. *)
Theorem C64_outfile_options_partial : forall E H c ord f f' fl ln en, let q := calls sel_step empty_select H in let ops := map snd H in
  core_said E q c -> Forall2 (ordering E) (s_order q) ord ->
  wanted_out OFile ops = Some f -> values E f f' -> given_said E (wanted_out OFields ops) fl -> given_said E (wanted_out OLines ops) ln -> given_said E (wanted_out OEncl ops) en ->
  exists s, text E (VSelect q) = Ok s /\
    read_statement (dialect_of (e_be E)) s = if accepted_options (wanted_out OFields ops) (wanted_out OLines ops) (wanted_out OEncl ops)
      then Some (NSelect (NQuery c [] ord (l_limit (s_limit q)) (l_offset (s_limit q)) (Some (NOut f' (option_map (fun x => (x, en)) fl) ln)) (s_forupd q)))
      else None.
Proof. exact outfile_read. Qed.
Print Assumptions C64_outfile_options_partial.

(** ** Examples *)
(** a UNION (b UNION ALL (c LIMIT 1)), with the limit at the end and in the middle. *)
Definition from63 (n : string) : selq val := select [SFrom [vs n] []].
Definition first63 (n : string) : selq val := select [SFrom [vs n] []; SLimit (VInt 1) VNone].
Definition union63 (x y z : selq val) : val := VUnion UUnion (VSelect x) (VUnion UAll (VSelect y) (VSelect z)).
Example C63_ok : operands (union63 (from63 "a") (from63 "b") (first63 "c")) (from63 "a") [(UUnion, from63 "b"); (UAll, first63 "c")] /\
  (exists n, query (demo BMySql) (VSelect (from63 "a")) n /\ no_clauses n = true) /\ (exists n, query (demo BMySql) (VSelect (first63 "c")) n /\ no_clauses n = false).
Proof.
  split; [|split].
  - generalize (from63 "a") (from63 "b") (first63 "c"). intros x y z.
    exact (opd_union UUnion _ _ _ [] _ [(UAll, z)] (opd_one x) (opd_union UAll _ _ _ [] _ [] (opd_one y) (opd_one z))).
  - eexists. split; [let q := eval vm_compute in (from63 "a") in change (from63 "a") with q; said|reflexivity].
  - eexists. split; [let q := eval vm_compute in (first63 "c") in change (first63 "c") with q; said|reflexivity].
Qed.
Example C63_example :
  text (demo BMySql) (union63 (from63 "a") (from63 "b") (first63 "c")) = Ok (lit "SELECT * FROM `a` UNION SELECT * FROM `b` UNION ALL SELECT * FROM `c` LIMIT 1") /\
  text (demo BMySql) (union63 (from63 "a") (first63 "b") (from63 "c")) = Ok (lit "SELECT * FROM `a` UNION SELECT * FROM `b` LIMIT 1 UNION ALL SELECT * FROM `c`") /\
  match read_statement mysql_sql (lit "SELECT * FROM `a` UNION SELECT * FROM `b` UNION ALL SELECT * FROM `c` LIMIT 1") with
  | Some (NSelect (NQuery _ [_; _] [] (Some 1%Z) None None false)) => True | _ => False end /\
  read_statement mysql_sql (lit "SELECT * FROM `a` UNION SELECT * FROM `b` LIMIT 1 UNION ALL SELECT * FROM `c`") = None.
Proof. split; [vm_compute; reflexivity|]. split; [vm_compute; reflexivity|]. split; [vm_compute; exact Logic.I|vm_compute; reflexivity]. Qed.
(** into_outfile('/tmp/x').optionally_enclosed_by(a quote).fields_terminated_by(','), then lines_terminated_by('|') *)
Definition calls64 : list (world * selop) := map (fun o => (demoW BMySql, o))
  [SFrom [vs "t"] []; SOut OFile (vs "/tmp/x"); SOut OEncl (VStr [34]); SOut OFields (vs ",")].
Example C64_ok : exists c, core_said (demo BMySql) (calls sel_step empty_select calls64) c /\
  wanted_out OFile (map snd calls64) = Some (vs "/tmp/x") /\ values (demo BMySql) (vs "/tmp/x") (NLiteral (LText (lit "/tmp/x"))) /\
  accepted_options (wanted_out OFields (map snd calls64)) (wanted_out OLines (map snd calls64)) (wanted_out OEncl (map snd calls64)) = true /\
  accepted_options (wanted_out OFields (map snd calls64)) (Some (vs "|")) (wanted_out OEncl (map snd calls64)) = false.
Proof.
  eexists. split; [let q := eval vm_compute in (calls sel_step empty_select calls64) in change (calls sel_step empty_select calls64) with q; said|].
  split; [reflexivity|]. split; [change (vs "/tmp/x") with (VStr (lit "/tmp/x")); said|]. split; reflexivity.
Qed.
