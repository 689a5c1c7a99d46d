(** Model of /repo/lib/daeso/string/tf_idf.py.  Floats are real numbers. *)
From Coq Require Import Reals.
From Verif Require Import Py Corpus_model.
Open Scope nat_scope.
Set Implicit Arguments.
Section Tfidf.
Variable T : Type.
Variables teqb tleb : T -> T -> bool.
(** [try: d[t] += 1 / except KeyError: d[t] = 1] *)
Definition bump (d : list (T * nat)) (t : T) : list (T * nat) :=
  match dget teqb d t with Some n => dset teqb d t (n + 1) | None => dset teqb d t 1 end.
(** tf_idf.py 203-229: the state is (terms, term_freq_per_doc) *)
Definition calculate_term_frequencies (terms_per_doc : list (list T)) : list T * list (list (T * nat)) :=
  let st := fold_left (fun st doc_terms =>
      let st' := fold_left (fun (s : list (T * bool) * list (T * nat)) term => (dset teqb (fst s) term true, bump (snd s) term))
                           doc_terms (fst st, []) in
      (fst st', snd st ++ [snd st'])) terms_per_doc ([], []) in
  (list_sort tleb (dkeys (fst st)), snd st).
(** tf_idf.py 185-200 *)
Definition calculate_document_frequencies (term_freq_per_doc : list (list (T * nat))) : list (T * nat) :=
  fold_left (fun doc_freq term_freq => fold_left bump (dkeys term_freq) doc_freq) term_freq_per_doc [].
(** math.log: ValueError for 0 *)
Definition mlog (x : R) : res R := if Rle_dec x 0 then Err ValueError else Ok (ln x).
Definition rdiv (a b : R) : res R := if Req_EM_T b 0 then Err ZeroDivisionError else Ok (a / b)%R.
Section W.
Variables (terms_per_doc : list (list T)) (normalized : bool).
Let docs_count : R := INR (length terms_per_doc).
(** tf_idf.py 85-91 and 149-155 *)
Definition norm_of : res R := if normalized then mlog docs_count else Ok 1%R.
(** tf_idf.py 99-100 and 174 *)
Definition term_idf (doc_freq : list (T * nat)) (norm : R) (term : T) : res R :=
  df <- dread teqb doc_freq term ;; q <- rdiv docs_count (INR df) ;; l <- mlog q ;; rdiv l norm.
(** tf_idf.py 42-107 *)
Definition idf : res (list T * list (list R)) :=
  let tf := calculate_term_frequencies terms_per_doc in
  let doc_freq := calculate_document_frequencies (snd tf) in
  norm <- norm_of ;;
  w <- mapM (fun _ => mapM (term_idf doc_freq norm) (fst tf)) (seq 0 (length terms_per_doc)) ;;
  Ok (fst tf, w).
(** tf_idf.py 162-170: the term frequency; an empty document has frequency 0 *)
Definition term_tf (indicator : bool) (doc_terms : list T) (doc_term_freq : list (T * nat)) (term : T) : R :=
  if indicator then (if mem teqb term doc_terms then 1%R else 0%R)
  else match rdiv (INR (match dget teqb doc_term_freq term with Some n => n | None => 0 end)) (INR (length doc_terms)) with
       | Ok x => x | Err _ => 0%R end.
(** tf_idf.py 110-182 *)
Definition tf_idf (indicator : bool) : res (list T * list (list R)) :=
  let tf := calculate_term_frequencies terms_per_doc in
  let doc_freq := calculate_document_frequencies (snd tf) in
  norm <- norm_of ;;
  w <- mapM (fun d => mapM (fun term => i <- term_idf doc_freq norm term ;; Ok (term_tf indicator (fst d) (snd d) term * i)%R) (fst tf))
            (combine terms_per_doc (snd tf)) ;;
  Ok (fst tf, w).
End W.
End Tfidf.
