(** The OpenMP loops of /repo as threads with shared memory (ParModel.v), except
    the region in CuckooHasher::HashSimple (cuckoo_hasher.h:148-170): its threads
    fill vectors of their own and append them in the order of the thread numbers
    (`ordered`), which [hash_simple] in CuckooModel.v already describes for every
    division of the loop.

    Memory that no thread of a region writes and that is not an output (the
    inputs, the trees, the buckets) is read directly instead of cell by cell. *)
From Verif Require Import Base ScalarModel GgmModel RotModel CuckooModel MpfssModel ParModel.
Local Open Scope Z_scope.

(** A region without a prologue. *)
Definition no_prologue {C V} (t : Z) : thread C V := Stop.

(** ** CuckooHasher::Hash *)
Section Hash.
  Variable aes : N -> N -> N.
  Variable h : hasher.
  Let num := ch_num_hash_functions h.

  (** cuckoo_hasher.h:123-126. Cell (i, j) is result[i][j]. *)
  Definition hash_iteration (inputs : list N) (num_buckets : Z) (t i : Z) : thread (Z * Z) Z :=
    match zget inputs i with
    | Ok x =>
        let current_hash := hash_to_uint128 aes h x in
        iterations (fun j => Put (i, j) (hash_to_bucket aes h current_hash num_buckets j) Stop) (zrange 0 num)
    | _ => Crash "inputs[i]"
    end.
  (** cuckoo_hasher.h:118-120: the vector `result`. *)
  Definition hash_allocated (inputs : list N) '((i, j) : Z * Z) : bool :=
    (0 <=? i) && (i <? zlen inputs) && (0 <=? j) && (j <? num).
  (** cuckoo_hasher.h:121-127 *)
  Definition hash_threads (inputs : list N) (num_buckets : Z) (parts : list (list Z)) : list (thread (Z * Z) Z) :=
    parallel_for no_prologue (hash_iteration inputs num_buckets) parts.
End Hash.

(** ** AllButOneRandomOT::SendTrees and ReceiveTrees *)
Section Trees.
  Variable aes : N -> N -> N.
  Variable clog : Z -> Z -> nat.

  (** all_but_one_random_ot.h:184-191. Cell i is status_or_trees[i]. *)
  Definition create_iteration (sizes : list Z) (keys : list N) (t i : Z) : thread Z (option (res tree)) :=
    match zget sizes i with
    | Ok n =>
        if n =? 0 then Stop else
        Draw (fun seed => Put i (Some (ggm_create aes clog n seed keys)) Stop)
    | _ => Crash "num_leaves[i]"
    end.
  (** all_but_one_random_ot.h:181-182: the vector `status_or_trees`. *)
  Definition slot_allocated (sizes : list Z) (i : Z) : bool := (0 <=? i) && (i <? zlen sizes).
  (** all_but_one_random_ot.h:183-191 *)
  Definition create_threads (sizes : list Z) (keys : list N) (parts : list (list Z)) : list (thread Z (option (res tree))) :=
    parallel_for no_prologue (create_iteration sizes keys) parts.

  (** all_but_one_random_ot.cpp:101-102: trees[i], and the variable `status`
      (nothing: OK) that all iterations share. *)
  Inductive receive_cell := TreeAt (i : Z) | TheStatus.
  Inductive receive_value := TreeIs (t : option tree) | StatusIs (s : option status).
  (** all_but_one_random_ot.cpp:104-126 *)
  Definition receive_iteration (choices : list bool) (ot_results : list N) (offsets : list Z) (keys : list N)
      (sizes indices : list Z) (t i : Z) : thread receive_cell receive_value :=
    if znth 0 sizes i =? 0 then Stop else
    match receive_tree aes clog 2 choices ot_results offsets keys i (znth 0 sizes i) (znth 0 indices i) with
    | Ok tr => Put (TreeAt i) (TreeIs tr) Stop
    | Err s => Put TheStatus (StatusIs (Some s)) Stop
    | UB w => Crash w
    end.
  Definition receive_allocated (sizes : list Z) (c : receive_cell) : bool :=
    match c with TreeAt i => (0 <=? i) && (i <? zlen sizes) | TheStatus => true end.
  (** all_but_one_random_ot.cpp:103-127 *)
  Definition receive_threads choices ot_results offsets keys sizes indices parts :=
    parallel_for no_prologue (receive_iteration choices ot_results offsets keys sizes indices) parts.
End Trees.

(** ** Loops with scalars *)
Section Scalars.
  Variable S : scalar.

  (** The memory that the spans point to, by address; sums[j]; and the modulus that
      NTL has installed in thread t, which is memory of that thread only. *)
  Inductive cell := At (address : Z) | SumOf (j : Z) | ModulusOf (thread : Z).
  Inductive value := Scalar (x : S) | Modulus (p : option positive).

  (** The modulus saved in NTLContext<T>, if T is a type of NTL; for other types
      save() and restore() do nothing (internal/ntl_helpers.h:43-51). *)
  Variable context : option positive.

  (** context.restore() *)
  Definition restore (t : Z) : thread cell value :=
    match context with
    | None => Stop
    | Some p => Put (ModulusOf t) (Modulus (Some p)) Stop
    end.
  (** Arithmetic and conversions of thread t: with no modulus, or with a
      different one, NTL crashes or returns something else. *)
  Definition compute (t : Z) (k : thread cell value) : thread cell value :=
    match context with
    | None => k
    | Some p => Get (ModulusOf t) (fun v =>
        match v with
        | Modulus (Some q) => if Pos.eqb p q then k else Crash "wrong modulus"
        | _ => Crash "no modulus"
        end)
    end.
  Definition get_scalar (c : cell) (k : S -> thread cell value) : thread cell value :=
    Get c (fun v => match v with Scalar x => k x | Modulus _ => Crash "type" end).

  (** A span: address and size. span[k] *)
  Definition in_span (span : Z * Z) (k : Z) (access : cell -> thread cell value) : thread cell value :=
    if (0 <=? k) && (k <? snd span) then access (At (fst span + k)) else Crash "span index".

  Definition spans_allocated (spans : list (Z * Z)) (c : cell) : bool :=
    match c with
    | At a => existsb (fun '(b, n) => (b <=? a) && (a <? b + n)) spans
    | SumOf j => (0 <=? j) && (j <? zlen spans)
    | ModulusOf _ => true
    end.

  (** all_but_one_random_ot_internal.h:43-50 *)
  Definition unpack_thread (t : Z) (tr : tree) (span : Z * Z) : thread cell value :=
    iterations (fun k =>
      match get_value_at_leaf tr k with
      | Ok leaf => compute t (in_span span k (fun c => Put c (Scalar (s_of128 S leaf)) Stop))
      | _ => Crash "ValueOrDie"
      end) (zrange 0 (num_leaves tr)).
  (** all_but_one_random_ot.h:81-86 and 118-123 *)
  Definition unpack_iteration (trees : list (option tree)) (spans : list (Z * Z)) (t i : Z) : thread cell value :=
    match zget spans i, zget trees i with
    | Ok span, Ok (Some tr) => if snd span =? 0 then Stop else unpack_thread t tr span
    | Ok span, _ => if snd span =? 0 then Stop else Crash "null pointer"
    | _, _ => Crash "outputs[i]"
    end.
  (** all_but_one_random_ot.h:77-87 and 114-124 *)
  Definition unpack_threads trees spans parts := parallel_for restore (unpack_iteration trees spans) parts.

  (** spfss_known_index.h:120-124 *)
  Definition provider_iteration (spans : list (Z * Z)) (t j : Z) : thread cell value :=
    match zget spans j with
    | Ok span =>
        iterations (fun i => in_span span i (fun output =>
          compute t (
          get_scalar (SumOf j) (fun sum => get_scalar output (fun x =>
          Put (SumOf j) (Scalar (s_add S sum x)) (
          get_scalar output (fun x =>
          Put output (Scalar (s_opp S x)) Stop))))))) (zrange 0 (snd span))
    | _ => Crash "outputs[j]"
    end.
  (** spfss_known_index.h:116-126 *)
  Definition provider_threads spans parts := parallel_for restore (provider_iteration spans) parts.

  (** spfss_known_index.h:152-157 *)
  Definition index_iteration (indices : list Z) (spans : list (Z * Z)) (t j : Z) : thread cell value :=
    match zget spans j with
    | Ok span =>
        iterations (fun i =>
          match zget indices j with
          | Ok index =>
              if i =? index then Stop else
              in_span span i (fun output =>
              compute t (
              get_scalar (SumOf j) (fun sum => get_scalar output (fun x =>
              Put (SumOf j) (Scalar (s_sub S sum x)) Stop))))
          | _ => Crash "indices[j]"
          end) (zrange 0 (snd span))
    | _ => Crash "outputs[j]"
    end.
  (** spfss_known_index.h:148-159 *)
  Definition index_threads indices spans parts := parallel_for restore (index_iteration indices spans) parts.

  (** mpfss_known_indices.h:232-235: bucket_outputs[i], bucket_output_spans[i]
      (the vector it points to and its size), index_in_bucket[i]. *)
  Inductive search_cell := OutputOf (i : Z) | SpanOf (i : Z) | IndexOf (i : Z) | SearchModulus (thread : Z).
  Inductive search_value := Vector (v : list S) | Span (vector size : Z) | Index (k : Z) | SearchContext (p : option positive).
  Definition search_restore (t : Z) : thread search_cell search_value :=
    match context with
    | None => Stop
    | Some p => Put (SearchModulus t) (SearchContext (Some p)) Stop
    end.
  Definition search_compute (t : Z) (k : thread search_cell search_value) : thread search_cell search_value :=
    match context with
    | None => k
    | Some p => Get (SearchModulus t) (fun v =>
        match v with
        | SearchContext (Some q) => if Pos.eqb p q then k else Crash "wrong modulus"
        | _ => Crash "no modulus"
        end)
    end.
  (** mpfss_known_indices.h:242-259 *)
  Definition search_iteration (buckets : list (list Z)) (hashed_inputs indices : list Z) (t i : Z) : thread search_cell search_value :=
    then_do (search_restore t)
    match zget buckets i with
    | Ok bucket =>
        if zlen bucket =? 0 then Stop else
        search_compute t (
        Put (OutputOf i) (Vector (zrepeat (s_zero S) (zlen bucket))) (
        Put (SpanOf i) (Span i (zlen bucket)) (
        match zget hashed_inputs i with
        | Ok k =>
            if k =? -1 then Stop else
            match zget indices k with
            | Ok index => Put (IndexOf i) (Index (lower_bound bucket index)) Stop
            | _ => Crash "indices[k]"
            end
        | _ => Crash "hashed_inputs[i]"
        end)))
    | _ => Crash "buckets_[i]"
    end.
  Definition search_allocated (num_buckets : Z) (c : search_cell) : bool :=
    match c with
    | OutputOf i | SpanOf i | IndexOf i => (0 <=? i) && (i <? num_buckets)
    | SearchModulus _ => true
    end.
  (** mpfss_known_indices.h:238-260 *)
  Definition search_threads buckets hashed_inputs indices parts :=
    parallel_for search_restore (search_iteration buckets hashed_inputs indices) parts.
End Scalars.
Arguments Scalar {S} x.
Arguments Modulus {S} p.
Arguments Vector {S} v.
Arguments Span {S} vector size.
Arguments Index {S} k.
Arguments SearchContext {S} p.

(** Cells can be compared. *)
Definition same_pair (c d : Z * Z) : {c = d} + {c <> d}.
Proof. decide equality; apply Z.eq_dec. Defined.
Definition same_receive (c d : receive_cell) : {c = d} + {c <> d}.
Proof. decide equality; apply Z.eq_dec. Defined.
Definition same_cell (c d : cell) : {c = d} + {c <> d}.
Proof. decide equality; apply Z.eq_dec. Defined.
Definition same_search (c d : search_cell) : {c = d} + {c <> d}.
Proof. decide equality; apply Z.eq_dec. Defined.
