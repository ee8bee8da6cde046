(** Persisted text of a triangulation and of its provenance
    (include/Utilities.hpp:103-1222, 1284-1475), as functions on bytes. *)
From Verif Require Import Base Config Fnv Text.
From Coq Require Import QArith_base.
Local Open Scope Z_scope.
Local Open Scope list_scope.

(** A CGAL Delaunay triangulation as the persistence code sees it: dimension,
    edge and facet counts, the answer of tds().is_valid(), the finite vertices
    (point, info) and the finite cells (the four vertex indices, info), both in
    container order.  Simplification: the combinatorics between vertices, edges
    and facets is not derived, only reported. *)
Definition point : Type := (fp * fp * fp)%type.
Record tri := Tri {
  t_dim : Z; t_edges : Z; t_facets : Z; t_valid : bool;
  t_verts : list (point * Z);
  t_cells : list (list nat * Z)
}.
(** CGAL number_of_vertices() (finite) and number_of_finite_cells(). *)
Definition number_of_vertices (t : tri) : Z := Z.of_nat (length (t_verts t)).
Definition number_of_finite_cells (t : tri) : Z := Z.of_nat (length (t_cells t)).

(** * Payload integrity *)
(** include/Utilities.hpp:159-163 [Payload_integrity]. *)
Record integrity := Integrity { i_size : Z; i_digest : Z }.
(** include/Utilities.hpp:191-224 [payload_integrity] of the bytes of an opened
    file read to its end. The 8192-byte buffering is not represented. *)
Definition payload_integrity (bytes : text) : integrity :=
  Integrity (wrap64 (Z.of_nat (length bytes))) (fnv1a bytes).

(** * Causal info *)
(** include/Utilities.hpp:156-157. *)
Definition CAUSAL_INFO_HEADER : text := B "cdt-plusplus-causal-info-v2".

(** include/Utilities.hpp:557-576: one numbered record per label. *)
Fixpoint label_lines (prefix : text) (i : Z) (labels : list Z) : list text :=
  match labels with
  | [] => []
  | v :: r => (prefix ++ print_unsigned i ++ [BAR] ++ print_int v) :: label_lines prefix (i + 1) r
  end.
(** Lines ended by '\n'. *)
Definition put_lines (ls : list text) : text := concat (map (fun l => l ++ [NL]) ls).

(** include/Utilities.hpp:548-587 [write_causal_info]. *)
Definition write_causal_info (t : tri) : text :=
  put_lines ([[]; CAUSAL_INFO_HEADER; B "vertices=" ++ print_unsigned (number_of_vertices t)]
             ++ label_lines (B "v=") 0 (map snd (t_verts t))
             ++ [B "cells=" ++ print_unsigned (number_of_finite_cells t)]
             ++ label_lines (B "c=") 0 (map snd (t_cells t))).

(** include/Utilities.hpp:744-766 [parse_record]. *)
Definition parse_record (line prefix : text) : checked (text * Z) :=
  match strip_prefix prefix line with
  | None => Throws FilesystemError
  | Some record =>
      match rfind_char BAR record with
      | None => Throws FilesystemError
      | Some (key, info) =>
          if (match key with [] => true | _ => false end)
             || (match info with [] => true | _ => false end)
          then Throws FilesystemError
          else let! v := parse_int info in Val (key, v)
      end
  end.
(** include/Utilities.hpp:768-780 [parse_count_line]. *)
Definition parse_count_line (line prefix : text) : checked Z :=
  match strip_prefix prefix line with
  | None => Throws FilesystemError
  | Some r => parse_unsigned r 10
  end.

(** include/Utilities.hpp:790-807: the loop of [read_indexed_info]; [n] records
    still to read. *)
Fixpoint read_records (n : nat) (input prefix : text) (count : Z) (indexed : list (option Z))
  : checked (list (option Z) * text) :=
  match n with
  | O => Val (indexed, input)
  | S m =>
      match getline input with
      | None => Throws FilesystemError
      | Some (line, rest) =>
          let! kv := parse_record line prefix in
          let! index := parse_unsigned (fst kv) 10 in
          if count <=? index then Throws FilesystemError
          else match nth_error indexed (Z.to_nat index) with
               | Some None =>
                   read_records m rest prefix count (<[Z.to_nat index := Some (snd kv)]> indexed)
               | _ => Throws FilesystemError
               end
      end
  end.
(** include/Utilities.hpp:809-821: every slot must be filled. *)
Fixpoint all_present (indexed : list (option Z)) : checked (list Z) :=
  match indexed with
  | [] => Val []
  | None :: _ => Throws FilesystemError
  | Some v :: r => let! vs := all_present r in Val (v :: vs)
  end.
(** include/Utilities.hpp:782-822 [read_indexed_info]; also returns the rest of
    the stream. *)
Definition read_indexed_info (input prefix : text) (count : Z) : checked (list Z * text) :=
  let! p := read_records (Z.to_nat count) input prefix count (repeat None (Z.to_nat count)) in
  let! vs := all_present (fst p) in Val (vs, snd p).

(** include/Utilities.hpp:871-882: labels assigned in container order. *)
Definition with_labels (t : tri) (vs cs : list Z) : tri :=
  Tri (t_dim t) (t_edges t) (t_facets t) (t_valid t)
      (zip (map fst (t_verts t)) vs) (zip (map fst (t_cells t)) cs).

(** include/Utilities.hpp:824-883 [read_causal_info]. *)
Definition read_causal_info (input : text) (t : tri) : checked (tri * text) :=
  match getline input with
  | None => Throws FilesystemError
  | Some (line, in1) =>
      if negb (text_eqb line CAUSAL_INFO_HEADER) then Throws FilesystemError else
      match getline in1 with
      | None => Throws FilesystemError
      | Some (line, in2) =>
          let! vertex_count := parse_count_line line (B "vertices=") in
          if negb (vertex_count =? number_of_vertices t) then Throws FilesystemError else
          let! vp := read_indexed_info in2 (B "v=") vertex_count in
          match getline (snd vp) with
          | None => Throws FilesystemError
          | Some (line, in3) =>
              let! cell_count := parse_count_line line (B "cells=") in
              if negb (cell_count =? number_of_finite_cells t) then Throws FilesystemError else
              let! cp := read_indexed_info in3 (B "c=") cell_count in
              Val (with_labels t (fst vp) (fst cp), snd cp)
          end
      end
  end.

(** * Canonical fingerprints *)
(** include/Utilities.hpp:502-517 [fingerprint_records]: FNV-1a over each
    record followed by the byte 0xFF. *)
Definition fingerprint_records (records : list text) : Z :=
  fold_left (fun h r => fnv_step (fnv_from h r) 255) records fnv_offset.

(** std::unique on a sorted vector. *)
Fixpoint unique (l : list text) : list text :=
  match l with
  | [] => []
  | x :: r => match r with
              | y :: _ => if text_eqb x y then unique r else x :: unique r
              | [] => [x]
              end
  end.
(** std::lower_bound - begin: the index of the first element that is not less. *)
Fixpoint lower_bound (l : list text) (x : text) : Z :=
  match l with
  | [] => 0
  | y :: r => if lex_leb x y then 0 else 1 + lower_bound r x
  end.
(** include/Utilities.hpp:244-261 [canonical_colors]. *)
Definition canonical_colors (signatures : list text) : list Z :=
  let ordered := unique (sort_by lex_leb signatures) in
  map (lower_bound ordered) signatures.

(** include/Utilities.hpp:263. *)
Definition CANONICAL_INCIDENCE_WORK_BUDGET : Z := 100000.
(** include/Utilities.hpp:265-273. *)
Definition consume_work (budget : Z) : checked Z :=
  if budget =? 0 then Throws RuntimeError else Val (budget - 1).

(** std::vector::at. *)
Definition at_ {A} (l : list A) (i : nat) : checked A :=
  match nth_error l i with Some x => Val x | None => Throws OutOfRange end.
Fixpoint mapM {A C} (f : A -> checked C) (l : list A) : checked (list C) :=
  match l with
  | [] => Val []
  | x :: r => let! y := f x in let! ys := mapM f r in Val (y :: ys)
  end.

(** The sorted colors of the neighbours (286-292, 321-327). *)
Definition neighboring_colors (colors : list Z) (neighbors : list nat) : checked (list Z) :=
  let! cs := mapM (at_ colors) neighbors in Val (sort_by Z.leb cs).
(** One refinement step (281-301): the signature of a node is its color and the
    sorted colors of its neighbours. *)
Definition signature_of (adjacency : list (list nat)) (colors : list Z) (node : nat) : checked text :=
  let! ns := at_ adjacency node in
  let! cs := neighboring_colors colors ns in
  let! c := at_ colors node in
  Val (c :: cs).
(** include/Utilities.hpp:275-308 [refine_incidence_colors]. *)
Fixpoint refine_colors (iterations : nat) (adjacency : list (list nat)) (colors : list Z) (budget : Z)
  : checked (list Z * Z) :=
  match iterations with
  | O => Val (colors, budget)
  | S m =>
      let! budget' := consume_work budget in
      let! signatures := mapM (signature_of adjacency colors) (seq 0 (length adjacency)) in
      let refined := canonical_colors signatures in
      if text_eqb refined colors then Val (colors, budget')
      else refine_colors m adjacency refined budget'
  end.

(** include/Utilities.hpp:312-345 [incidence_records_for_coloring]. *)
Fixpoint nodes_by_color (colors : list Z) (node : nat) (acc : list nat) : checked (list nat) :=
  match colors with
  | [] => Val acc
  | c :: r => if (0 <=? c) && (c <? Z.of_nat (length acc))
              then nodes_by_color r (S node) (<[Z.to_nat c := node]> acc)
              else Throws OutOfRange
  end.
Definition node_record (bases : list text) (adjacency : list (list nat)) (colors : list Z) (node : nat)
  : checked text :=
  let! ns := at_ adjacency node in
  let! cs := neighboring_colors colors ns in
  let! base := at_ bases node in
  Val (print_unsigned (Z.of_nat (length base)) ++ B ":" ++ base ++ B ":neighbors="
       ++ concat (map (fun c => print_unsigned c ++ B ";") cs)).
Definition records_for_coloring (bases : list text) (adjacency : list (list nat)) (colors : list Z)
  : checked (list text) :=
  let! nodes := nodes_by_color colors 0 (repeat 0%nat (length colors)) in
  mapM (node_record bases adjacency colors) nodes.

(** The color counts of 354-355; [at] throws when a color is not below the
    number of nodes. *)
Definition count_color (colors : list Z) (c : Z) : nat := length (List.filter (Z.eqb c) colors).
Definition color_counts (colors : list Z) : checked (list nat) :=
  if forallb (fun c => (0 <=? c) && (c <? Z.of_nat (length colors))) colors
  then Val (map (fun i => count_color colors (Z.of_nat i)) (seq 0 (length colors)))
  else Throws OutOfRange.
(** The first color used more than once (356-357). *)
Fixpoint first_ambiguous (i : Z) (counts : list nat) : option Z :=
  match counts with
  | [] => None
  | n :: r => if (1 <? n)%nat then Some i else first_ambiguous (i + 1) r
  end.
(** operator< on std::vector<std::string>. *)
Fixpoint lex_leb2 (a b : list text) : bool :=
  match a, b with
  | [], _ => true
  | _ :: _, [] => false
  | x :: a', y :: b' => if text_eqb x y then lex_leb2 a' b' else lex_leb x y
  end.
Definition better (candidate : list text) (best : option (list text)) : list text :=
  match best with
  | None => candidate
  | Some b => if lex_leb2 b candidate then b else candidate
  end.

(** include/Utilities.hpp:347-379 [canonical_incidence_search]. The recursion
    consumes a unit of budget per call, so [fuel] above the budget never runs
    out before the budget does. *)
Fixpoint search (fuel : nat) (bases : list text) (adjacency : list (list nat)) (colors0 : list Z) (budget0 : Z)
  : checked (list text * Z) :=
  match fuel with
  | O => Throws RuntimeError
  | S f =>
      let! budget1 := consume_work budget0 in
      let! cb := refine_colors (length adjacency) adjacency colors0 budget1 in
      let colors := fst cb in
      let! counts := color_counts colors in
      match first_ambiguous 0 counts with
      | None => let! r := records_for_coloring bases adjacency colors in Val (r, snd cb)
      | Some ambiguous_color =>
          let individualized_color := fold_right Z.max 0 colors + 1 in
          (fix loop (nodes : list nat) (best : option (list text)) (budget : Z) {struct nodes}
             : checked (list text * Z) :=
             match nodes with
             | [] => match best with Some b => Val (b, budget) | None => Undef end
             | node :: r =>
                 let! c := at_ colors node in
                 if negb (c =? ambiguous_color) then loop r best budget
                 else let! p := search f bases adjacency (<[node := individualized_color]> colors) budget in
                      loop r (Some (better (fst p) best)) (snd p)
             end) (seq 0 (length colors)) None (snd cb)
      end
  end.

(** include/Utilities.hpp:407-417: vertices first, then cells; each incidence is
    entered at both ends. *)
Definition incident_cells (nv : nat) (cell_vertices : list (list nat)) (v : nat) : list nat :=
  concat (imap (fun c vs => repeat (nv + c)%nat (length (List.filter (Nat.eqb v) vs))) cell_vertices).
Definition bipartite_adjacency (nv : nat) (cell_vertices : list (list nat)) : list (list nat) :=
  map (incident_cells nv cell_vertices) (seq 0 nv) ++ cell_vertices.
(** include/Utilities.hpp:381-420 [canonical_bipartite_incidence_records]. *)
Definition canonical_bipartite_incidence_records (vertex_bases cell_bases : list text)
  (cell_vertices : list (list nat)) : checked (list text) :=
  if negb (Nat.eqb (length cell_bases) (length cell_vertices)) then Throws InvalidArgument
  else if negb (forallb (forallb (fun v => (v <? length vertex_bases)%nat)) cell_vertices)
  then Throws InvalidArgument
  else
    let bases := vertex_bases ++ cell_bases in
    match bases with
    | [] => Val []
    | _ =>
        let adjacency := bipartite_adjacency (length vertex_bases) cell_vertices in
        let! p := search (S (Z.to_nat CANONICAL_INCIDENCE_WORK_BUDGET)) bases adjacency
                    (canonical_colors bases) CANONICAL_INCIDENCE_WORK_BUDGET in
        Val (fst p)
    end.

Section Formats.
(** fmt "{:.17g}" of a double, fmt "{}" of a double and of a long double, and
    stream extraction of a double and of a long double in the classic locale
    (the value and what is left, or failure): library functions the model does
    not define. *)
Variable fmt17g : fp -> text.
Variables print_double print_long_double : fp -> text.
Variables scan_double scan_long_double : text -> option (fp * text).

(** include/Utilities.hpp:226-231 [point_key]. *)
Definition point_key (p : point) : text :=
  let '(x, y, z) := p in fmt17g x ++ B "," ++ fmt17g y ++ B "," ++ fmt17g z.
(** include/Utilities.hpp:438-442, 479-481: a vertex record. *)
Definition vertex_record (v : point * Z) : text :=
  B "v:" ++ point_key (fst v) ++ B ":" ++ print_int (snd v).
(** include/Utilities.hpp:431-445 [vertex_records]. *)
Definition vertex_records (t : tri) : list text := sort_by lex_leb (map vertex_record (t_verts t)).
(** include/Utilities.hpp:448-458 [has_coincident_vertices]: two vertices with
    the same key. *)
Fixpoint has_repeat (keys : list text) : bool :=
  match keys with
  | [] => false
  | k :: r => existsb (text_eqb k) r || has_repeat r
  end.
Definition has_coincident_vertices (t : tri) : bool := has_repeat (map (fun v => point_key (fst v)) (t_verts t)).
(** The point of the i-th vertex; cells only name existing vertices, otherwise
    CGAL dereferences a null handle. *)
Definition vertex_point (t : tri) (i : nat) : checked point :=
  match nth_error (t_verts t) i with Some v => Val (fst v) | None => Undef end.
(** include/Utilities.hpp:233-242 [point_cell_key]: sorted point keys. *)
Definition join_keys (keys : list text) : text :=
  match keys with
  | [] => []
  | k :: r => k ++ concat (map (fun x => B ";" ++ x) r)
  end.
Definition point_cell_key (t : tri) (vs : list nat) : checked text :=
  let! ps := mapM (vertex_point t) vs in
  Val (join_keys (sort_by lex_leb (map point_key ps))).
(** include/Utilities.hpp:539-543: a cell record. *)
Definition cell_record (t : tri) (c : list nat * Z) : checked text :=
  let! k := point_cell_key t (fst c) in Val (B "c:" ++ k ++ B ":" ++ print_int (snd c)).

(** include/Utilities.hpp:459-500 [incidence_topology_records]. *)
Definition incidence_topology_records (t : tri) : checked (list text) :=
  canonical_bipartite_incidence_records
    (map vertex_record (t_verts t))
    (map (fun c => B "c:" ++ print_int (snd c)) (t_cells t))
    (map fst (t_cells t)).

(** include/Utilities.hpp:519-522. *)
Definition placement_fingerprint (t : tri) : Z := fingerprint_records (vertex_records t).
(** include/Utilities.hpp:524-546 [canonical_topology_fingerprint]. *)
Definition topology_fingerprint (t : tri) : checked Z :=
  if has_coincident_vertices t
  then let! r := incidence_topology_records t in Val (fingerprint_records r)
  else let! cs := mapM (cell_record t) (t_cells t) in
       Val (fingerprint_records (sort_by lex_leb (vertex_records t ++ cs))).

(** * Metadata *)
(** include/Utilities.hpp:96-101. *)
Inductive artifact_kind := INITIAL_TRIANGULATION | CHECKPOINT | FINAL_TRIANGULATION.
Inductive meta_topology := SPHERICAL | TOROIDAL.
(** include/Utilities.hpp:103-143 [Reproducibility_metadata]. *)
Record metadata := Metadata {
  m_artifact : artifact_kind; m_seed : Z; m_init_stream : Z; m_trans_stream : Z;
  m_topology : meta_topology; m_dimension : Z; m_desired_simplices : Z; m_desired_timeslices : Z;
  m_vertices : Z; m_edges : Z; m_faces : Z; m_simplices : Z; m_min_time : Z; m_max_time : Z;
  m_radius : fp; m_spacing : fp;
  m_alpha : option fp; m_k : option fp; m_lambda : option fp;
  m_passes : option Z; m_attempts : option Z; m_interval : option Z; m_completed : option Z;
  m_threads : option Z; m_trace : option Z; m_count : option Z;
  m_placement : option Z; m_fingerprint : option Z
}.
(** The build constants of cmake/…version header and of the compiler
    (include/Utilities.hpp:178-189, 626-630): fixed strings of the build. *)
Record build_info := Build {
  b_version : text; b_compiler_id : text; b_compiler_version : text; b_configuration : text;
  b_system : text; b_processor : text; b_library : text; b_cgal : text
}.

(** include/Utilities.hpp:165-176 [artifact_name]. *)
Definition artifact_name (a : artifact_kind) : text :=
  match a with
  | INITIAL_TRIANGULATION => B "initial-triangulation"
  | CHECKPOINT => B "checkpoint"
  | FINAL_TRIANGULATION => B "final-triangulation"
  end.
Definition METADATA_HEADER : text := B "cdt-plusplus-metadata-v1".

(** include/Utilities.hpp:640-643 [append_optional]. *)
Definition optional_field {A} (name : text) (f : A -> text) (v : option A) : list (text * text) :=
  match v with Some x => [(name, f x)] | None => [] end.
(** The key/value lines of 591-668, in order. *)
Definition metadata_fields (b : build_info) (m : metadata) (payload : integrity) : list (text * text) :=
  [ (B "payload.size", print_unsigned (i_size payload));
    (B "payload.fnv1a64", print_hex16 (i_digest payload));
    (B "artifact", artifact_name (m_artifact m));
    (B "resume_supported", B "false");
    (B "fresh_topology_replay_supported", B "false");
    (B "transition_replay_requires_identical_start", B "true");
    (B "cdt.version", b_version b);
    (B "build.compiler_id", b_compiler_id b);
    (B "build.compiler_version", b_compiler_version b);
    (B "build.configuration", b_configuration b);
    (B "build.system", b_system b);
    (B "build.processor", b_processor b);
    (B "build.cxx_standard", B "23");
    (B "build.standard_library", b_library b);
    (B "dependency.cgal_version", b_cgal b);
    (B "random.engine", B "pcg64");
    (B "random.seed", print_unsigned (m_seed m));
    (B "random.initialization_stream", print_unsigned (m_init_stream m));
    (B "random.transition_stream", print_unsigned (m_trans_stream m));
    (B "topology", match m_topology m with SPHERICAL => B "spherical" | TOROIDAL => B "toroidal" end);
    (B "dimension", print_int (m_dimension m));
    (B "desired.simplices", print_int (m_desired_simplices m));
    (B "desired.timeslices", print_int (m_desired_timeslices m));
    (B "actual.vertices", print_int (m_vertices m));
    (B "actual.edges", print_int (m_edges m));
    (B "actual.faces", print_int (m_faces m));
    (B "actual.simplices", print_int (m_simplices m));
    (B "actual.minimum_timeslice", print_int (m_min_time m));
    (B "actual.maximum_timeslice", print_int (m_max_time m));
    (B "initial_radius", print_double (m_radius m));
    (B "foliation_spacing", print_double (m_spacing m)) ]
  ++ optional_field (B "alpha") print_long_double (m_alpha m)
  ++ optional_field (B "k") print_long_double (m_k m)
  ++ optional_field (B "lambda") print_long_double (m_lambda m)
  ++ optional_field (B "configured_passes") print_int (m_passes m)
  ++ optional_field (B "configured_attempts") print_int (m_attempts m)
  ++ optional_field (B "checkpoint_interval") print_int (m_interval m)
  ++ optional_field (B "completed_passes") print_int (m_completed m)
  ++ optional_field (B "parallel.max_threads") print_unsigned (m_threads m)
  ++ optional_field (B "transition_trace.fnv1a64") print_hex16 (m_trace m)
  ++ optional_field (B "transition_trace.count") print_unsigned (m_count m)
  ++ optional_field (B "placement.fnv1a64") print_hex16 (m_placement m)
  ++ optional_field (B "topology.fnv1a64") print_hex16 (m_fingerprint m).
(** include/Utilities.hpp:589-669 [metadata_text]. *)
Definition metadata_text (b : build_info) (m : metadata) (payload : integrity) : text :=
  put_lines (METADATA_HEADER :: map (fun kv => fst kv ++ EQ :: snd kv) (metadata_fields b m payload)).

(** include/Utilities.hpp:885-903 [Parsed_persistence_metadata]. *)
Record parsed := Parsed {
  p_payload : integrity; p_artifact : artifact_kind; p_seed : Z; p_init_stream : Z; p_trans_stream : Z;
  p_topology : meta_topology; p_dimension : Z; p_vertices : Z; p_edges : Z; p_faces : Z; p_simplices : Z;
  p_min_time : Z; p_max_time : Z; p_threads : option Z; p_placement : Z; p_fingerprint : Z
}.

(** std::map<std::string, std::string>::find. *)
Fixpoint get (values : list (text * text)) (k : text) : option text :=
  match values with
  | [] => None
  | (k', v) :: r => if text_eqb k k' then Some v else get r k
  end.
Definition contains (values : list (text * text)) (k : text) : bool :=
  match get values k with Some _ => true | None => false end.
(** std::map::at. *)
Definition at_key (values : list (text * text)) (k : text) : checked text :=
  match get values k with Some v => Val v | None => Throws OutOfRange end.

(** include/Utilities.hpp:924-943: the loop over the key=value lines ([fuel]
    bounds the number of lines). The end of the loop is the end of the file;
    read errors are the file system's (PersistFs.v). *)
Fixpoint read_fields (fuel : nat) (input : text) (values : list (text * text)) : checked (list (text * text)) :=
  match fuel with
  | O => Val values
  | S f =>
      match getline input with
      | None => Val values
      | Some (line, rest) =>
          match find_char EQ line with
          | None => Throws FilesystemError
          | Some (k, v) =>
              if (match k with [] => true | _ => false end) || (match v with [] => true | _ => false end)
              then Throws FilesystemError
              else if contains values k then Throws FilesystemError
              else read_fields f rest (values ++ [(k, v)])
          end
      end
  end.

(** include/Utilities.hpp:951-991: the required keys. *)
Definition required_keys : list text :=
  [ B "payload.size"; B "payload.fnv1a64"; B "artifact"; B "resume_supported";
    B "fresh_topology_replay_supported"; B "transition_replay_requires_identical_start";
    B "cdt.version"; B "build.compiler_id"; B "build.compiler_version"; B "build.configuration";
    B "build.system"; B "build.processor"; B "build.cxx_standard"; B "build.standard_library";
    B "dependency.cgal_version"; B "random.engine"; B "random.seed"; B "random.initialization_stream";
    B "random.transition_stream"; B "topology"; B "dimension"; B "desired.simplices";
    B "desired.timeslices"; B "actual.vertices"; B "actual.edges"; B "actual.faces";
    B "actual.simplices"; B "actual.minimum_timeslice"; B "actual.maximum_timeslice";
    B "initial_radius"; B "foliation_spacing"; B "placement.fnv1a64"; B "topology.fnv1a64" ].

Definition require (b : bool) : checked unit := if b then Val tt else Throws FilesystemError.
(** include/Utilities.hpp:721-742 [parse_metadata_floating]. *)
Definition parse_floating (scan : text -> option (fp * text)) (t : text) : checked fp :=
  match scan t with
  | None => Throws FilesystemError
  | Some (v, rest) =>
      if (match skip_ws rest with [] => true | _ => false end) && isfinite v
      then Val v else Throws FilesystemError
  end.
(** Comparisons with the literals 0.0 and 0.5L. *)
Definition fp_zero : fp := Fin 0%Q.
Definition fp_half : fp := Fin (1 # 2)%Q.
Definition fp_leb (x y : fp) : bool :=
  match x, y with
  | Fin p, Fin q => Qle_bool p q
  | NaN, _ | _, NaN => false
  | Inf a, Inf b => a || negb b
  | Inf a, Fin _ => a
  | Fin _, Inf b => negb b
  end.
Definition b2z (b : bool) : Z := if b then 1 else 0.

(** include/Utilities.hpp:1013-1047 artifact and topology names. *)
Definition parse_artifact (v : text) : checked artifact_kind :=
  if text_eqb v (B "initial-triangulation") then Val INITIAL_TRIANGULATION
  else if text_eqb v (B "checkpoint") then Val CHECKPOINT
  else if text_eqb v (B "final-triangulation") then Val FINAL_TRIANGULATION
  else Throws FilesystemError.
Definition parse_topology (v : text) : checked meta_topology :=
  if text_eqb v (B "spherical") then Val SPHERICAL
  else if text_eqb v (B "toroidal") then Val TOROIDAL
  else Throws FilesystemError.
(** parse_integer_field, 1042-1044. *)
Definition int_field (values : list (text * text)) (k : text) : checked Z :=
  let! v := at_key values k in parse_int v.
Definition unsigned_field (values : list (text * text)) (k : text) (base : Z) : checked Z :=
  let! v := at_key values k in parse_unsigned v base.
Definition float_field (scan : text -> option (fp * text)) (values : list (text * text)) (k : text) : checked fp :=
  let! v := at_key values k in parse_floating scan v.
Definition fixed_field (values : list (text * text)) (k expected : text) : checked unit :=
  let! v := at_key values k in require (text_eqb v expected).
Definition fp_ltb0 (x : fp) : bool := fp_lt x fp_zero.
Definition is_checkpoint (a : artifact_kind) : bool := match a with CHECKPOINT => true | _ => false end.

(** include/Utilities.hpp:951-1202: everything [read_persistence_metadata]
    demands of the fields. *)
Definition interpret_fields (values : list (text * text)) : checked parsed :=
  let! _u := require (forallb (contains values) required_keys) in
  let! _u := fixed_field values (B "resume_supported") (B "false") in
  let! _u := fixed_field values (B "fresh_topology_replay_supported") (B "false") in
  let! _u := fixed_field values (B "transition_replay_requires_identical_start") (B "true") in
  let! _u := fixed_field values (B "random.engine") (B "pcg64") in
  let! _u := fixed_field values (B "build.cxx_standard") (B "23") in
  let! av := at_key values (B "artifact") in
  let! artifact := parse_artifact av in
  let! tv := at_key values (B "topology") in
  let! topology := parse_topology tv in
  let! dimension := int_field values (B "dimension") in
  let! desired_simplices := int_field values (B "desired.simplices") in
  let! desired_timeslices := int_field values (B "desired.timeslices") in
  let! actual_vertices := int_field values (B "actual.vertices") in
  let! actual_edges := int_field values (B "actual.edges") in
  let! actual_faces := int_field values (B "actual.faces") in
  let! actual_simplices := int_field values (B "actual.simplices") in
  let! minimum := int_field values (B "actual.minimum_timeslice") in
  let! maximum := int_field values (B "actual.maximum_timeslice") in
  let! _u := require (negb ((dimension <=? 0) || (desired_simplices <? 0) || (desired_timeslices <? 0)
                     || (actual_vertices <? 0) || (actual_edges <? 0) || (actual_faces <? 0)
                     || (actual_simplices <? 0) || (maximum <? minimum))) in
  let! radius := float_field scan_double values (B "initial_radius") in
  let! spacing := float_field scan_double values (B "foliation_spacing") in
  let! _u := require (negb (fp_ltb0 radius || fp_leb spacing fp_zero)) in
  let action := b2z (contains values (B "alpha")) + b2z (contains values (B "k"))
                + b2z (contains values (B "lambda")) in
  let! _u := require (negb (negb (action =? 0) && negb (action =? 3))) in
  let! _u := (if action =? 3 then
                let! alpha := float_field scan_long_double values (B "alpha") in
                let! _k := float_field scan_long_double values (B "k") in
                let! _l := float_field scan_long_double values (B "lambda") in
                require (negb (fp_leb alpha fp_half))
              else Val tt) in
  let run := b2z (contains values (B "configured_passes")) + b2z (contains values (B "checkpoint_interval")) in
  let! _u := require (negb (negb (run =? 0) && negb (run =? 2))) in
  let! _u := (if run =? 2 then
                let! passes := int_field values (B "configured_passes") in
                let! _u := require (negb (passes <=? 0)) in
                let! interval := int_field values (B "checkpoint_interval") in
                require (negb (interval <=? 0))
              else Val tt) in
  let! _u := (if contains values (B "configured_attempts") then
                let! attempts := int_field values (B "configured_attempts") in
                require (negb (attempts <=? 0))
              else Val tt) in
  let! _u := require (negb (is_checkpoint artifact && negb (contains values (B "completed_passes")))) in
  let! _u := (if contains values (B "completed_passes") then
                let! completed := int_field values (B "completed_passes") in
                require (negb (completed <? 0))
              else Val tt) in
  let! threads := (match get values (B "parallel.max_threads") with
                   | Some v => let! n := parse_unsigned v 10 in
                               let! _u := require (negb (n =? 0)) in Val (Some n)
                   | None => Val None
                   end) in
  let transition := b2z (contains values (B "transition_trace.fnv1a64"))
                    + b2z (contains values (B "transition_trace.count")) in
  let! _u := require (negb (negb (transition =? 0) && negb (transition =? 2))) in
  let! _u := (if transition =? 2 then
                let! _t := unsigned_field values (B "transition_trace.fnv1a64") 16 in
                let! _c := unsigned_field values (B "transition_trace.count") 10 in Val tt
              else Val tt) in
  let! size := unsigned_field values (B "payload.size") 10 in
  let! digest := unsigned_field values (B "payload.fnv1a64") 16 in
  let! seed := unsigned_field values (B "random.seed") 10 in
  let! init := unsigned_field values (B "random.initialization_stream") 10 in
  let! trans := unsigned_field values (B "random.transition_stream") 10 in
  let! placement := unsigned_field values (B "placement.fnv1a64") 16 in
  let! fingerprint := unsigned_field values (B "topology.fnv1a64") 16 in
  Val (Parsed (Integrity size digest) artifact seed init trans topology dimension actual_vertices
         actual_edges actual_faces actual_simplices minimum maximum threads placement fingerprint).

(** include/Utilities.hpp:905-1202 [read_persistence_metadata] of the contents
    of an opened file. *)
Definition read_persistence_metadata (contents : text) : checked parsed :=
  match getline contents with
  | None => Throws FilesystemError
  | Some (line, rest) =>
      if negb (text_eqb line METADATA_HEADER) then Throws FilesystemError
      else let! values := read_fields (S (length rest)) rest [] in interpret_fields values
  end.

(** * Payload *)
(** gsl::narrow to Int_precision: throws gsl::narrowing_error. *)
Definition narrow (z : Z) : checked Z := if in_int32b z then Val z else Throws (ForeignException 0).

(** The minimum and maximum of the vertex labels (1368-1388); 0 and 0 without
    vertices. *)
Definition time_bounds (t : tri) : Z * Z :=
  match map snd (t_verts t) with
  | [] => (0, 0)
  | x :: r => (fold_left Z.min r x, fold_left Z.max r x)
  end.

(** include/Utilities.hpp:1346-1396 [reconcile_payload_metadata]. *)
Definition reconcile (m : metadata) (t : tri) : checked metadata :=
  let! dim := narrow (t_dim t) in
  let! nv := narrow (number_of_vertices t) in
  let! ne := narrow (t_edges t) in
  let! nf := narrow (t_facets t) in
  let! nc := narrow (number_of_finite_cells t) in
  let! topo := topology_fingerprint t in
  Val (Metadata (m_artifact m) (m_seed m) (m_init_stream m) (m_trans_stream m) (m_topology m)
         dim (m_desired_simplices m) (m_desired_timeslices m) nv ne nf nc
         (fst (time_bounds t)) (snd (time_bounds t)) (m_radius m) (m_spacing m)
         (m_alpha m) (m_k m) (m_lambda m) (m_passes m) (m_attempts m) (m_interval m) (m_completed m)
         (m_threads m) (m_trace m) (m_count m)
         (Some (placement_fingerprint t)) (Some topo)).

(** The default-initialised metadata of 1401. *)
Definition default_metadata : metadata :=
  Metadata FINAL_TRIANGULATION 0 0 0 SPHERICAL 0 0 0 0 0 0 0 0 0 fp_zero fp_zero
    None None None None None None None None None None None None.

(** include/Utilities.hpp:1398-1425 [validate_persistence_metadata]. *)
Definition oZ_eqb (a : Z) (b : option Z) : bool := match b with Some x => a =? x | None => false end.
Definition validate_persistence_metadata (p : parsed) (t : tri) : checked unit :=
  let! derived := reconcile default_metadata t in
  require ((p_dimension p =? m_dimension derived) && (p_vertices p =? m_vertices derived)
           && (p_edges p =? m_edges derived) && (p_faces p =? m_faces derived)
           && (p_simplices p =? m_simplices derived) && (p_min_time p =? m_min_time derived)
           && (p_max_time p =? m_max_time derived)
           && oZ_eqb (p_placement p) (m_placement derived)
           && oZ_eqb (p_fingerprint p) (m_fingerprint derived)).

(** CGAL's operator<< at 17 digits and operator>> (the triangulation, its
    labels not set, and the rest of the stream): not defined by the model. *)
Variable cgal_write : tri -> text.
Variable cgal_read : text -> option (tri * text).

(** What write_payload puts in the payload file (1535-1537). *)
Definition payload_text (t : tri) : text := cgal_write t ++ write_causal_info t.

(** include/Utilities.hpp:1278-1344 [parse_payload] of the contents of an
    opened file. *)
Definition parse_payload (contents : text) : checked tri :=
  match cgal_read contents with
  | None => Throws FilesystemError
  | Some (t, rest) =>
      let! p := (match skip_ws rest with
                 | [] => Val (t, [])
                 | rest' => let! q := read_causal_info rest' t in Val (fst q, skip_ws (snd q))
                 end) in
      match snd p with
      | [] => if t_valid (fst p) then Val (fst p) else Throws FilesystemError
      | _ => Throws FilesystemError
      end
  end.

(** include/Utilities.hpp:1427-1483 [validate_serialized_payload], the branch of
    CGAL triangulations. *)
Definition validate_serialized_payload (contents : text) (original : tri) : checked unit :=
  let! parsed := parse_payload contents in
  let! _u := require ((t_dim parsed =? t_dim original)
                      && (number_of_vertices parsed =? number_of_vertices original)
                      && (t_edges parsed =? t_edges original)
                      && (t_facets parsed =? t_facets original)
                      && (number_of_finite_cells parsed =? number_of_finite_cells original)) in
  let! a := topology_fingerprint parsed in
  let! b := topology_fingerprint original in
  require (a =? b).

End Formats.
