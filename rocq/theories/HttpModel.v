(** Model of src/mln_http.c: parsing the head of a message from a chain of buffers, writing a message, and the header fields. Allocations
    succeed. The header fields are the list of the entries of the hash table in the order of insertion: the table has 31 buckets and never
    grows, a new entry goes to the end of its bucket and of the chain used for iteration (src/mln_hash.c:222-273), so that the first entry
    of a bucket equal to a key is the first of the list that has the same bucket number and that the comparison handler calls equal, and an
    iteration meets the entries in the order of the list. [None] is undefined behaviour. *)
Require Import List Arith NArith Bool Ascii String.
Require Import Verif.Base.
Import List ListNotations.
Open Scope list_scope.
Open Scope N_scope.

Definition bytes := list N.
Fixpoint text (s : string) : bytes := match s with EmptyString => [] | String c r => N_of_ascii c :: text r end.

(** include/mln_chain.h: a buffer without memory (NULL), one in a file, and one in memory with the bytes from left_pos to last. A chain is
    the list of its buffers. The flags last_buf and last_in_chain of generated buffers are left out. *)
Inductive buf := BNull | BFile | BMem (l : bytes).
Definition chain := list buf.

(** include/mln_http.h:24-31: types and results *)
Definition UNKNOWN : N := 0.
Definition REQUEST : N := 1.
Definition RESPONSE : N := 2.
Definition RET_OK : N := 0.
Definition RET_DONE : N := 1.
Definition RET_ERROR : N := 2.
(** src/mln_http.c:51-65 *)
Definition http_version : list bytes := [text "HTTP/1.0"; text "HTTP/1.1"].
Definition http_method : list bytes :=
  [text "GET"; text "POST"; text "HEAD"; text "PUT"; text "DELETE"; text "TRACE"; text "CONNECT"; text "OPTIONS"].
(** src/mln_http.c:67-124: message, digits and number (include/mln_http.h:48-103) *)
Definition http_status : list (bytes * bytes * N) :=
  [(text "Continue", text "100", 100); (text "Switching Protocols", text "101", 101); (text "Processing", text "102", 102);
   (text "OK", text "200", 200); (text "Created", text "201", 201); (text "Accepted", text "202", 202);
   (text "Non-Authoritative Information", text "203", 203); (text "No Content", text "204", 204); (text "Reset Content", text "205", 205);
   (text "Partial Content", text "206", 206); (text "Multi-Status", text "207", 207); (text "Multiple Choices", text "300", 300);
   (text "Moved Permanently", text "301", 301); (text "Move temporarily", text "302", 302); (text "See Other", text "303", 303);
   (text "Not Modified", text "304", 304); (text "Use Proxy", text "305", 305); (text "Switch Proxy", text "306", 306);
   (text "Temporary Redirect", text "307", 307); (text "Bad Request", text "400", 400); (text "Unauthorized", text "401", 401);
   (text "Payment Required", text "402", 402); (text "Forbidden", text "403", 403); (text "Not Found", text "404", 404);
   (text "Method Not Allowed", text "405", 405); (text "Not Acceptable", text "406", 406); (text "Proxy Authentication Required", text "407", 407);
   (text "Request Timeout", text "408", 408); (text "Conflict", text "409", 409); (text "Gone", text "410", 410);
   (text "Length Required", text "411", 411); (text "Precondition Failed", text "412", 412); (text "Request Entity Too Large", text "413", 413);
   (text "Request-URI Too Long", text "414", 414); (text "Unsupported Media Type", text "415", 415);
   (text "Requested Range Not Satisfiable", text "416", 416); (text "Expectation Failed", text "417", 417);
   (text "There are too many connections from your internet address", text "421", 421); (text "Unprocessable Entity", text "422", 422);
   (text "Locked", text "423", 423); (text "Failed Dependency", text "424", 424); (text "Unordered Collection", text "425", 425);
   (text "Upgrade Required", text "426", 426); (text "Retry With", text "449", 449); (text "Internal Server Error", text "500", 500);
   (text "Not Implemented", text "501", 501); (text "Bad Gateway", text "502", 502); (text "Service Unavailable", text "503", 503);
   (text "Gateway Timeout", text "504", 504); (text "HTTP Version Not Supported", text "505", 505);
   (text "Variant Also Negotiates", text "506", 506); (text "Insufficient Storage", text "507", 507);
   (text "Bandwidth Limit Exceeded", text "509", 509); (text "Not Extended", text "510", 510);
   (text "Unparseable Response Headers", text "600", 600)].

(** include/mln_http.h:115-132: [data] is what the data pointer of the user refers to. The pool and the connection are left out; the handler
    is an argument of the functions that call it. *)
Record http := mkH { fields : list (bytes * option bytes); body : chain; data : bytes; uri : option bytes; args : option bytes;
                     response_msg : option bytes; error : N; status : N; method : N; version : N; type : N; done : bool }.
Definition set_fields (h : http) x := mkH x (body h) (data h) (uri h) (args h) (response_msg h) (error h) (status h) (method h) (version h) (type h) (done h).
Definition set_body (h : http) x := mkH (fields h) x (data h) (uri h) (args h) (response_msg h) (error h) (status h) (method h) (version h) (type h) (done h).
Definition set_uri (h : http) x y := mkH (fields h) (body h) (data h) x y (response_msg h) (error h) (status h) (method h) (version h) (type h) (done h).
Definition set_msg (h : http) x := mkH (fields h) (body h) (data h) (uri h) (args h) x (error h) (status h) (method h) (version h) (type h) (done h).
Definition set_error (h : http) x := mkH (fields h) (body h) (data h) (uri h) (args h) (response_msg h) x (status h) (method h) (version h) (type h) (done h).
Definition set_status (h : http) x := mkH (fields h) (body h) (data h) (uri h) (args h) (response_msg h) (error h) x (method h) (version h) (type h) (done h).
Definition set_method (h : http) x := mkH (fields h) (body h) (data h) (uri h) (args h) (response_msg h) (error h) (status h) x (version h) (type h) (done h).
Definition set_version (h : http) x := mkH (fields h) (body h) (data h) (uri h) (args h) (response_msg h) (error h) (status h) (method h) x (type h) (done h).
Definition set_type (h : http) x := mkH (fields h) (body h) (data h) (uri h) (args h) (response_msg h) (error h) (status h) (method h) (version h) x (done h).
Definition set_done (h : http) x := mkH (fields h) (body h) (data h) (uri h) (args h) (response_msg h) (error h) (status h) (method h) (version h) (type h) x.
(** src/mln_http.c:884-930 mln_http_init and 954-982 mln_http_reset *)
Definition http_init (d : bytes) : http := mkH [] [] d None None None 200 200 0 0 UNKNOWN false.
Definition http_reset (h : http) : http := http_init (data h).

(** ** Comparing names *)
(** tolower in the C locale, and strncasecmp of two strings of the same length: it stops behind a null byte that both have. *)
Definition lower (c : N) : N := if (65 <=? c) && (c <=? 90) then c + 32 else c.
Fixpoint ncasecmp (a b : bytes) : bool :=
  match a, b with
  | x :: a, y :: b => (lower x =? lower y) && ((lower x =? 0) || ncasecmp a b)
  | _, _ => true
  end.
(** src/mln_string.c:447-452 mln_string_strcasecmp is 0 *)
Definition casecmp (a b : bytes) : bool := Nat.eqb (length a) (length b) && ncasecmp a b.
(** The loops of src/mln_http.c:263-265, 272-274 and 352-355: the index of the first row that is equal. *)
Fixpoint lookup (rows : list bytes) (w : bytes) (i : N) : option N :=
  match rows with [] => None | r :: t => if casecmp w r then Some i else lookup t w (i + 1) end.

(** ** Reading lines *)
Definition LF : N := 10.
Definition CR : N := 13.
(** src/mln_http.c:149-177 mln_http_line_length: the number of bytes in front of the first line feed; [None] is M_HTTP_RET_OK. *)
Fixpoint buf_length (l : bytes) (n : nat) : nat * bool :=
  match l with [] => (n, false) | c :: r => if c =? LF then (n, true) else buf_length r (S n) end.
Fixpoint line_length (c : chain) (n : nat) : option nat :=
  match c with
  | [] => None
  | BMem l :: r => let '(n, found) := buf_length l n in if found then Some n else line_length r n
  | _ :: r => line_length r n
  end.
(** src/mln_http.c:199-213: copying the line; the buffers that are used up are released. *)
Fixpoint buf_line (l : bytes) : bytes * option bytes :=
  match l with [] => ([], None) | c :: r => if c =? LF then ([], Some r) else let '(a, rest) := buf_line r in (c :: a, rest) end.
Fixpoint take_line (c : chain) : bytes * chain :=
  match c with
  | [] => ([], [])
  | BMem l :: r =>
      match buf_line l with
      | (a, Some rest) => (a, BMem rest :: r)
      | (a, None) => let '(b, rest) := take_line r in (a ++ b, rest)
      end
  | _ :: r => take_line r
  end.
(** src/mln_http.c:215-217: null bytes at the end are dropped, but not the first byte. *)
Fixpoint drop_nulls (rev_line : bytes) : bytes :=
  match rev_line with
  | [] => []
  | c :: r => if (c =? 0) && negb (match r with [] => true | _ => false end) then drop_nulls r else rev_line
  end.

(** ** The first line *)
Definition blank (c : N) : bool := (c =? 32) || (c =? 9).
Fixpoint skip (l : bytes) : bytes := match l with c :: r => if blank c then skip r else l | [] => [] end.
Fixpoint word (stop : N -> bool) (l : bytes) : bytes * bytes :=
  match l with
  | c :: r => if stop c then ([], l) else let '(a, b) := word stop r in (c :: a, b)
  | [] => ([], [])
  end.
(** src/mln_http.c:869-882 mln_http_atou *)
Fixpoint atou (l : bytes) (st : N) : option N :=
  match l with [] => Some st | c :: r => if (48 <=? c) && (c <=? 57) then atou r ((st * 10 + (c - 48)) mod 2 ^ 32) else None end.

(** src/mln_http.c:303-330: the target of a request *)
Definition set_target (h : http) (t : bytes) : http :=
  match word (fun c => c =? 63) t with
  | (u, _ :: ((_ :: _) as a)) => set_uri h (Some u) (Some a)
  | (u, _) => set_uri h (Some u) None
  end.
(** src/mln_http.c:344-380: the third part *)
Definition headline_third (h : http) (l : bytes) : N * http :=
  match skip l with
  | [] => (RET_OK, if type h =? REQUEST then set_version h 0 else set_msg h None)
  | l =>
      if type h =? REQUEST then
        match lookup http_version l 0 with
        | Some v => (RET_OK, set_version h v)
        | None => (RET_ERROR, set_error h 400)
        end
      else (RET_OK, set_msg h (Some l))
  end.
(** src/mln_http.c:287-342: the second part *)
Definition headline_second (h : http) (l : bytes) : N * http :=
  match skip l with
  | [] => (RET_ERROR, set_error h (if type h =? REQUEST then 400 else 600))
  | l =>
      let '(w, l) := word blank l in
      if type h =? REQUEST then headline_third (set_target h w) l
      else
        match atou w 0 with
        | Some s => headline_third (set_status h s) l
        | None => (RET_ERROR, set_error h 600)
        end
  end.
(** src/mln_http.c:240-381 mln_http_parse_headline *)
Definition parse_headline (h : http) (l : bytes) : N * http :=
  match skip l with
  | [] => (RET_OK, set_done h true)
  | l =>
      let '(w, l) := word blank l in
      match lookup http_version w 0 with
      | Some v => headline_second (set_version (set_type h RESPONSE) v) l
      | None =>
          match lookup http_method w 0 with
          | Some m => headline_second (set_method (set_type h REQUEST) m) l
          | None => (RET_ERROR, set_error h 400)
          end
      end
  end.

(** src/mln_http.c:383-474 mln_http_parse_field *)
Definition add_field (h : http) (k : bytes) (v : option bytes) : http := set_fields h (fields h ++ [(k, v)]).
Definition malformed (h : http) : N * http := (RET_ERROR, set_error h (if type h =? REQUEST then 400 else 600)).
Definition parse_field (h : http) (l : bytes) : N * http :=
  match skip l with
  | [] => (RET_OK, set_done h true)
  | l =>
      let '(k, l) := word (fun c => blank c || (c =? 58)) l in
      match k with
      | [] => malformed h
      | _ =>
          match skip l with
          | [] => (RET_OK, add_field h k None)
          | c :: l =>
              if c =? 58 then
                match skip l with
                | [] => (RET_OK, add_field h k None)
                | v => (RET_OK, add_field h k (Some v))
                end
              else malformed h
          end
      end
  end.

(** src/mln_http.c:215-238: a line without its line feed *)
Definition process_bytes (h : http) (line : bytes) : N * http :=
  let r := drop_nulls (rev line) in
  match r with
  | [] => (RET_OK, set_done h true)
  | c :: q =>
      if (match q with [] => true | _ => false end) && (c =? CR) then (RET_OK, set_done h true)
      else
        let l := rev (if c =? CR then q else r) in
        if type h =? UNKNOWN then parse_headline h l else parse_field h l
  end.
(** src/mln_http.c:179-238 mln_http_process_line: the buffer holds [len] bytes; reading or writing behind them is undefined. *)
Definition process_line (h : http) (c : chain) (len : nat) : option (N * http * chain) :=
  let '(line, rest) := take_line c in
  if Nat.eqb (length line) len then let '(r, h) := process_bytes h line in Some (r, h, rest) else None.

(** src/mln_http.c:127-147 mln_http_parse. The handler of the body gets the message and the chain. Every line takes a line feed out of the
    chain, so that the number of bytes bounds the number of lines; [None] is undefined behaviour. *)
Definition handler := http -> chain -> N * http * chain.
Fixpoint size (c : chain) : nat := match c with [] => 0%nat | BMem l :: r => (length l + size r)%nat | _ :: r => size r end.
Definition parse_end (f : option handler) (h : http) (c : chain) : N * http * chain :=
  let '(r, h, c) := match f with Some f => f h c | None => (RET_DONE, h, c) end in
  (r, if r =? RET_DONE then set_done h false else h, c).
Fixpoint parse_loop (fuel : nat) (f : option handler) (h : http) (c : chain) : option (N * http * chain) :=
  if done h then Some (parse_end f h c)
  else
    match line_length c 0 with
    | None => Some (RET_OK, h, c)
    | Some n =>
        match fuel with
        | O => None
        | S fuel =>
            x <- process_line h c n ;;
            let '(r, h, c) := x in
            if r =? RET_ERROR then Some (if r =? RET_ERROR then 1 else 0, h, c)
            else parse_loop fuel f h c
        end
    end.
Definition parse (f : option handler) (h : http) (c : chain) : option (N * http * chain) := parse_loop (size c) f h c.

(** ** Writing *)
(** src/mln_http.c:14-20 struct mln_http_chain_s: the chain (its last buffer is where the bytes go when there is room) and the room left. *)
Record hc := mkHC { out : chain; room : nat }.
Definition ALLOC_SIZE : nat := 1024.
(** src/mln_http.c:613-679 mln_http_generate_write *)
Fixpoint append_last (c : chain) (l : bytes) : option chain :=
  match c with
  | [] => None
  | [BMem x] => Some [BMem (x ++ l)]
  | [_] => None
  | b :: r => r <- append_last r l ;; Some (b :: r)
  end.
Fixpoint write_loop (fuel : nat) (w : hc) (l : bytes) : option hc :=
  match l with
  | [] => Some w
  | _ =>
      match fuel with
      | O => None
      | S f =>
          let w := if Nat.eqb (room w) 0 then mkHC (out w ++ [BMem []]) ALLOC_SIZE else w in
          if Nat.leb (length l) (room w) then
            c <- append_last (out w) l ;; write_loop f (mkHC c (room w - length l)) []
          else
            c <- append_last (out w) (firstn (room w) l) ;; write_loop f (mkHC c 0) (skipn (room w) l)
      end
  end.
Definition write (w : hc) (l : bytes) : option hc := write_loop (length l) w l.

(** Writing may refuse: the outer option is undefined behaviour, the inner [inl] the error number. *)
Definition writer := hc -> option (N + hc).
Definition emit (l : bytes) : writer := fun w => w <- write w l ;; Some (inr w).
Definition andthen (a b : writer) : writer := fun w => x <- a w ;; match x with inl e => Some (inl e) | inr w => b w end.
Definition refuse (e : N) : writer := fun _ => Some (inl e).

(** src/mln_http.c:681-699 mln_http_generate_version *)
Definition generate_version (h : http) : writer :=
  match nth_error http_version (N.to_nat (version h)) with
  | Some v => emit v
  | None => refuse (if type h =? REQUEST then 400 else 600)
  end.
(** src/mln_http.c:701-722 mln_http_generate_status *)
Definition generate_status (h : http) : writer :=
  match find (fun r => status h =? snd r) http_status with
  | Some (msg, code, _) => andthen (emit code) (andthen (emit [32]) (emit msg))
  | None => refuse 600
  end.
(** src/mln_http.c:724-736 mln_http_generate_method *)
Definition generate_method (h : http) : writer :=
  match nth_error http_method (N.to_nat (method h)) with Some m => emit m | None => refuse 400 end.
(** src/mln_http.c:738-757 mln_http_generate_uri *)
Definition generate_uri (h : http) : writer :=
  andthen (emit (match uri h with None => [47] | Some u => u end))
    (match args h with None => emit [] | Some a => andthen (emit [63]) (emit a) end).
(** src/mln_http.c:759-778 mln_http_generate_fields_hash_iterate_handler, called for every entry *)
Fixpoint generate_fields (l : list (bytes * option bytes)) : writer :=
  match l with
  | [] => emit []
  | (k, v) :: r =>
      andthen (emit k) (andthen (emit [58; 32]) (andthen (match v with Some v => emit v | None => emit [] end)
        (andthen (emit [CR; LF]) (generate_fields r))))
  end.
(** src/mln_http.c:502-523: the head *)
Definition generate_head (h : http) : writer :=
  andthen
    (if type h =? RESPONSE then andthen (generate_version h) (andthen (emit [32]) (generate_status h))
     else andthen (generate_method h) (andthen (emit [32]) (andthen (generate_uri h) (andthen (emit [32]) (generate_version h)))))
    (andthen (emit [CR; LF]) (andthen (generate_fields (fields h)) (emit [CR; LF]))).
(** src/mln_http.c:476-574 mln_http_generate. The handler may change the message, its body included. With an unknown type the error exit
    releases a pointer that was never set. [c] is the chain given in *out_head and *out_tail. *)
Definition generate_write_all (h : http) (c : chain) : option (N * http * chain) :=
  x <- generate_head h (mkHC c 0) ;;
  match x with
  | inl e => Some (RET_ERROR, set_error h e, [])
  | inr w => Some (RET_DONE, set_error (set_done (set_body h []) false) 200, out w ++ body h)
  end.
Definition generate (f : option (http -> N * http)) (h : http) (c : chain) : option (N * http * chain) :=
  if type h =? UNKNOWN then None
  else if done h then generate_write_all h c
  else
    match f with
    | None => generate_write_all (set_done h true) c
    | Some f =>
        let '(r, h) := f h in
        if r =? RET_ERROR then Some (RET_ERROR, h, [])
        else if r =? RET_OK then Some (RET_OK, set_error h 200, c)
        else generate_write_all (set_done h true) c
    end.

(** ** Header fields *)
(** src/mln_http.c:988-998 mln_http_hash_calc; 1000-1004 mln_http_hash_cmp *)
Definition hash_calc (k : bytes) : N := fold_left (fun i c => (i + c * 3) mod 2 ^ 64) k 0 mod 31.
Definition same (k k' : bytes) : bool := (hash_calc k =? hash_calc k') && casecmp k k'.
(** src/mln_http.c:809-818 mln_http_field_get: the outer option is false when there is no entry; a NULL value looks the same to the caller. *)
Definition field_find (h : http) (k : bytes) : option (bytes * option bytes) := find (fun e => same k (fst e)) (fields h).
Definition field_get (h : http) (k : bytes) : option bytes := match field_find h k with Some (_, v) => v | None => None end.
(** src/mln_http.c:781-807 mln_http_field_set: key and value of the first entry are replaced, or an entry is added. A NULL value is read
    through. *)
Fixpoint replace_first (l : list (bytes * option bytes)) (k v : bytes) : list (bytes * option bytes) :=
  match l with
  | [] => [(k, Some v)]
  | e :: r => if same k (fst e) then (k, Some v) :: r else e :: replace_first r k v
  end.
Definition field_set (h : http) (k : bytes) (v : option bytes) : option http :=
  v <- v ;; Some (set_fields h (replace_first (fields h) k v)).
(** src/mln_http.c:820-857 mln_http_field_iterator: the values that are not NULL, each followed by a comma except the last. The number of bytes
    is counted modulo 2^32: with 4 GiB of values the copy leaves the buffer. *)
Fixpoint join (n : nat) (l : list bytes) : bytes :=
  match l with
  | [] => []
  | v :: r => v ++ (if Nat.ltb 1 n then [44] else []) ++ join (n - 1) r
  end.
Definition field_values (h : http) (k : bytes) : list bytes :=
  concat (map (fun e => match snd e with Some v => [v] | None => [] end) (filter (fun e => same k (fst e)) (fields h))).
Definition field_iterator (h : http) (k : bytes) : option (option bytes) :=
  let l := field_values h k in
  let total := fold_left (fun n v => n + N.of_nat (length v) + 1) l 0 in
  if total <? 2 ^ 32 - 1 then Some (match l with [] => None | _ => Some (join (length l) l) end) else None.
(** src/mln_http.c:859-867 mln_http_field_remove: each round takes away the first entry; it stops when the search answers NULL. *)
Fixpoint remove_first (l : list (bytes * option bytes)) (k : bytes) : list (bytes * option bytes) :=
  match l with [] => [] | e :: r => if same k (fst e) then r else e :: remove_first r k end.
Fixpoint remove_loop (fuel : nat) (l : list (bytes * option bytes)) (k : bytes) : list (bytes * option bytes) :=
  match fuel with
  | O => l
  | S f =>
      match find (fun e => same k (fst e)) l with
      | Some (_, Some _) => remove_loop f (remove_first l k) k
      | _ => l
      end
  end.
Definition field_remove (h : http) (k : bytes) : http := set_fields h (remove_loop (length (fields h)) (fields h) k).
