{"id": "C01", "title": "HIID wildcard matching is language intersection", "statement": "a.matches(b) returns true exactly when at least one concrete identifier (no '?' or '*') is described by both patterns, where '?' stands for any one atom and '*' for any remaining suffix. Hence matching is symmetric, reflexive, and prefixedBy(p) is matching against p followed by '*'.", "quantifier": "all pairs of HIIDs of any length, with wildcards at any position", "why_tests_cant": "the pattern space is infinite and the criterion is an existential over all concrete ids", "anchors": ["DMI/src/HIID.cc:HIID::matches", "DMI/src/HIID.h:HIID::prefixedBy", "DMI/src/AtomicID.h:AtomicID::matches"]}
{"id": "C02", "title": "HIID subsetOf is language inclusion", "statement": "a.subsetOf(b) returns true exactly when every concrete identifier described by a is also described by b; so it is a preorder, and if a is a subset of b then b matches everything that a matches.", "quantifier": "all pairs of HIIDs of any length", "why_tests_cant": "the criterion is a universal statement over infinitely many concrete ids", "anchors": ["DMI/src/HIID.cc:HIID::subsetOf"]}
{"id": "C03", "title": "HIID ordering is a strict total order compatible with equality", "statement": "operator< on HIIDs is irreflexive, transitive, and for any two ids exactly one of a<b, a==b, b<a holds, so a std::map keyed by HIIDs has one entry per distinct id.", "quantifier": "all triples of HIIDs", "why_tests_cant": "total-order laws quantify over all triples", "anchors": ["DMI/src/HIID.cc:HIID::operator<", "DMI/src/HIID.cc:HIID::operator=="]}
{"id": "C04", "title": "HIID pack/unpack round trip", "statement": "Packing any HIID and unpacking the resulting bytes gives back an equal HIID, pack writes exactly packSize() bytes and decreases the space left by that amount, and refuses (without writing) when space is short; unpack refuses every byte count that is not a multiple of the atom size.", "quantifier": "all HIIDs, all buffer sizes, all byte strings", "why_tests_cant": "ranges over unboundedly many inputs; a test samples finitely many", "anchors": ["DMI/src/HIID.cc:HIID::pack", "DMI/src/HIID.cc:HIID::unpack"]}
{"id": "C05", "title": "HIID slicing at slashes and at the ends", "statement": "splitAtSlash returns everything before the first slash and leaves everything after it, losing nothing but that slash; repeated splitting enumerates the slash-separated components in order. pop_front(n) removes exactly the first n atoms. push_front(a,n) prepends n copies of a in front of the old contents.", "quantifier": "all HIIDs, all n", "why_tests_cant": "ranges over unboundedly many inputs; a test samples finitely many", "anchors": ["DMI/src/HIID.cc:HIID::splitAtSlash", "DMI/src/HIID.h:HIID::push_front", "DMI/src/HIID.h:HIID::pop_front"]}
{"id": "C06", "title": "Counted references: exact counts, no dangling references, no leaks", "statement": "After any sequence of attach, copy, xfer, detach, privatize, lock, unlock and destruction of references, an anonymous object is destroyed exactly when its last reference goes away, never before and never twice, and no live reference points to a destroyed object.", "quantifier": "all finite sequences of reference operations on any number of references and objects, including failing ones", "why_tests_cant": "sequences of operations are unbounded and failures may occur anywhere", "anchors": ["DMI/src/CountedRefBase.cc:detach,copy,xfer,privatize,attach", "DMI/src/CountedRefBase.h:CountedRefBase"]}
{"id": "C07", "title": "Copy-on-write isolation", "statement": "Writing through a reference that is not marked shared never changes the contents seen through any other reference: a write access first gives the reference its own private copy whenever the target has other references.", "quantifier": "all reachable reference graphs and all write operations on them", "why_tests_cant": "aliasing patterns are unbounded", "anchors": ["DMI/src/CountedRefBase.cc:getTargetWr,privatize", "DMI/src/CountedRefBase.h:isDirectlyWritable"]}
{"id": "C08", "title": "Locked references cannot be detached, and lock is undone by unlock", "statement": "While a reference is locked, every detach, and every copy or xfer or attach over it to a different object, fails and leaves the reference and the counts unchanged; after unlock it behaves as before locking.", "quantifier": "all reachable states and operations", "why_tests_cant": "ranges over unboundedly many inputs; a test samples finitely many", "anchors": ["DMI/src/CountedRefBase.cc:detach,lock,unlock"]}
{"id": "C09", "title": "BlockSet is a FIFO of blocks and the cursor reads every byte once", "statement": "Blocks come out of a BlockSet in the order pushed; reading through a cursor with any sequence of chunk sizes returns chunks whose concatenation is the concatenation of the blocks, with no byte skipped or repeated, and reports the end exactly when all bytes are consumed. flushToCursor drops exactly the blocks before the cursor and keeps the set's size consistent.", "quantifier": "all block contents and all sequences of requested chunk sizes", "why_tests_cant": "ranges over unboundedly many inputs; a test samples finitely many", "anchors": ["DMI/src/BlockSet.cc:push,pop,popMove,getCursorData,flushToCursor"]}
{"id": "C10", "title": "Object file round trip", "statement": "A file produced by writing a sequence of objects can be read back to give the same sequence of objects (type and block contents) followed by end-of-file.", "quantifier": "all finite sequences of objects with any (non-zero) number of non-empty blocks of any content", "why_tests_cant": "ranges over unboundedly many inputs; a test samples finitely many", "anchors": ["DMI/src/BOIO.cc:write,read,nextType,readAny"]}
{"id": "C11", "title": "Object file after a crash: truncation is detected and yields a prefix", "statement": "If the file is cut at any byte, reading it returns a prefix of the objects that were written and then reports end-of-file or throws; it never returns an object that was not written.", "quantifier": "all object sequences and all truncation points (crash points)", "why_tests_cant": "every byte position of every file is a crash point", "anchors": ["DMI/src/BOIO.cc:read,nextType,readAny"]}
{"id": "C12", "title": "Nested object serialisation round trip", "statement": "Storing any nested structure of Records, Lists, Vecs and NumArrays into blocks and rebuilding from those blocks yields a structure with equal contents, consuming exactly the blocks that were produced and leaving any following blocks untouched.", "quantifier": "all finite nested objects of any depth and width, followed by any other blocks", "why_tests_cant": "nesting depth and width are unbounded", "anchors": ["DMI/src/Record.cc:toBlock,fromBlock", "DMI/src/List.cc:toBlock,fromBlock", "DMI/src/Vec.cc:toBlock,fromBlock", "DMI/src/NumArray.cc:toBlock,fromBlock", "DMI/src/DynamicTypeManager.cc:construct"]}
{"id": "C13", "title": "Deserialisation fails cleanly on missing blocks", "statement": "Rebuilding an object from any proper prefix of the blocks it was stored into throws; it never silently produces an object from too few blocks.", "quantifier": "all nested objects and all truncation points of their block list", "why_tests_cant": "ranges over unboundedly many inputs; a test samples finitely many", "anchors": ["DMI/src/Record.cc:fromBlock", "DMI/src/List.cc:fromBlock", "DMI/src/Vec.cc:fromBlock", "DMI/src/BlockSet.cc:pop"]}
{"id": "C14", "title": "List behaves as a sequence with negative indexing", "statement": "put, insert, replace, remove, addFront, addBack and append on a List act as the corresponding operations on a mathematical sequence, with index -k meaning k-th from the end; illegal indices throw and leave the list unchanged. get reads the same element that put at the same index would write.", "quantifier": "all lists and all indices, all operation sequences", "why_tests_cant": "ranges over unboundedly many inputs; a test samples finitely many", "anchors": ["DMI/src/List.cc:applyIndex,applyIndexConst,get,put,insert,remove,append"]}
{"id": "C15", "title": "Record behaves as a finite map with protected fields", "statement": "add, replace, remove, get and hasField on a Record act as on a finite map from ids to objects; a field that is protected is never changed or removed by an operation that honours protection, and a failing add/remove/replace leaves the record unchanged.", "quantifier": "all operation sequences", "why_tests_cant": "ranges over unboundedly many inputs; a test samples finitely many", "anchors": ["DMI/src/Record.cc:addField,removeField,protectField,merge,get,remove"]}
{"id": "C16", "title": "Record merge", "statement": "a.merge(b,overwrite) leaves every field of a that is not in b unchanged, adds every field of b that is not in a, and resolves common fields in favour of b exactly when overwrite is set; it throws if it would overwrite a protected field.", "quantifier": "all pairs of records", "why_tests_cant": "ranges over unboundedly many inputs; a test samples finitely many", "anchors": ["DMI/src/Record.cc:merge"]}
{"id": "C17", "title": "Removing a record field returns the object that was stored", "statement": "removeField(id) returns a reference to the object stored in the field.", "quantifier": "all records and ids", "why_tests_cant": "ranges over unboundedly many inputs; a test samples finitely many", "anchors": ["DMI/src/Record.cc:removeField", "DMI/src/Record.h:Record::Field::xfer"]}
{"id": "C18", "title": "NumArray indexing is a bijection onto the data block", "statement": "For every shape, two different in-range index tuples address different, non-overlapping elements inside the data, every element of the data is addressed by exactly one index tuple, and out-of-range tuples are refused.", "quantifier": "all ranks, shapes and index tuples", "why_tests_cant": "ranges over unboundedly many inputs; a test samples finitely many", "anchors": ["DMI/src/NumArray.cc:getOffset,parseHIID"]}
{"id": "C19", "title": "NumArray slices address the elements the range syntax names", "statement": "A slice start:end:incr along an axis yields elements start, start+incr, ... up to and including end, and a range that leaves the axis is refused.", "quantifier": "all shapes and ranges", "why_tests_cant": "ranges over unboundedly many inputs; a test samples finitely many", "anchors": ["DMI/src/NumArray.cc:parseHIID,get"]}
{"id": "C20", "title": "Sequence/array/map packers round trip", "statement": "Unpacking what a packer produced yields the original sequence, for sequences, maps and arrays of either binary or packable elements.", "quantifier": "all sequences/maps/arrays", "why_tests_cant": "ranges over unboundedly many inputs; a test samples finitely many", "anchors": ["DMI/src/Packer.h:SeqPacker,MapPacker,ArrayPacker"]}
{"id": "C21", "title": "Timestamp arithmetic", "statement": "Sums and differences of timestamps are normalised (0 <= usec < 10^6) and equal the exact sum/difference of the times in microseconds; comparison of normalised timestamps agrees with comparison of times.", "quantifier": "all pairs of timestamps", "why_tests_cant": "ranges over unboundedly many inputs; a test samples finitely many", "anchors": ["DMI/src/Timestamp.h", "DMI/src/Timestamp.cc"]}
{"id": "C22", "title": "Request-id masked comparison and difference mask", "statement": "Two non-empty request ids compare equal under a dependency mask exactly when they agree (missing positions counting as 0) at each of the 16 positions selected by the mask, which holds exactly when the difference mask has no bit in common with it; comparison is an equivalence on non-empty ids and coarser for smaller masks.", "quantifier": "all request ids of any length and all masks", "why_tests_cant": "ranges over unboundedly many inputs; a test samples finitely many", "anchors": ["MEQ/src/RequestId.cc:maskedCompare,diffMask"]}
{"id": "C23", "title": "Request-id update operations touch exactly the masked positions", "statement": "incrSubId(id,m) differs from id in exactly the positions selected by m; setSubId sets exactly those positions; maskSubId keeps exactly those positions and zeroes the others, so the sub-id it returns is equivalent to the original under m.", "quantifier": "all request ids and all masks within 16 bits", "why_tests_cant": "ranges over unboundedly many inputs; a test samples finitely many", "anchors": ["MEQ/src/RequestId.cc:incrSubId,setSubId,maskSubId"]}
{"id": "C24", "title": "Symbolic dependency masks stay consistent", "statement": "After any sequence of set/load/setActive the active mask equals the union of the masks currently assigned to the active dependencies.", "quantifier": "all operation sequences", "why_tests_cant": "ranges over unboundedly many inputs; a test samples finitely many", "anchors": ["MEQ/src/SymdepMap.cc:set,load,setActive,getMask"]}
{"id": "C25", "title": "Domain envelope and containment", "statement": "The envelope of two domains contains each of them along every axis they define, is the smallest such domain, is commutative, associative and idempotent; supersetOfProj is reflexive and transitive; expandToEnvelope computes the same domain.", "quantifier": "all pairs of domains (exact arithmetic)", "why_tests_cant": "ranges over unboundedly many inputs; a test samples finitely many", "anchors": ["MEQ/src/Domain.cc:envelope,supersetOfProj,expandToEnvelope"]}
{"id": "C26", "title": "Cells segments partition the grid into uniform runs", "statement": "After setting cells along an axis, the computed segments are consecutive, non-empty, non-overlapping index ranges covering all cells, and within each segment consecutive spacings and all cell sizes agree within the tolerance.", "quantifier": "all grids of any length (exact arithmetic)", "why_tests_cant": "ranges over unboundedly many inputs; a test samples finitely many", "anchors": ["MEQ/src/Cells.cc:recomputeSegments"]}
{"id": "C27", "title": "Cells comparison is reflexive and symmetric", "statement": "compare() returns 0 for equal cells and 'compares as 0' is a symmetric relation; empty cells equal empty cells and differ from non-empty ones.", "quantifier": "all pairs of cells", "why_tests_cant": "ranges over unboundedly many inputs; a test samples finitely many", "anchors": ["MEQ/src/Cells.cc:compare"]}
{"id": "C28", "title": "Cells resampling preserves coverage", "statement": "Upsampling by any factor, or integrating by a factor dividing the number of cells, yields cells of the expected number whose union is exactly the union of the original cells when these are contiguous; upsampling followed by integrating by the same factor is the identity.", "quantifier": "all grids and factors (exact arithmetic)", "why_tests_cant": "ranges over unboundedly many inputs; a test samples finitely many", "anchors": ["MEQ/src/Cells.cc:Cells(const Cells&,ops,args)"]}
{"id": "C29", "title": "Cached evaluation equals fresh evaluation", "statement": "For every forest of nodes whose results depend on a request only through the request-id positions they declare, executing any sequence of requests with result caching returns, for every request, the same results as evaluating without any cache.", "quantifier": "all node graphs (trees/DAGs), all dependency masks, all sequences of requests, all cache policies and states of parent cache hints", "why_tests_cant": "correctness of a cache is a property of whole histories", "anchors": ["MEQ/src/Node.cc:execute,getCachedResult,cacheResult,holdCache,clearCache", "MEQ/src/RequestId.cc:diffMask"]}
{"id": "C30", "title": "Child poll order is a permutation", "statement": "setChildPollOrder with distinct names of children yields an order in which every child is polled exactly once, the named ones first in the given order; unknown or duplicate names are refused.", "quantifier": "all child sets and all name lists", "why_tests_cant": "ranges over unboundedly many inputs; a test samples finitely many", "anchors": ["MEQ/src/NodeNursery.cc:setChildPollOrder"]}
{"id": "C31", "title": "Synchronous child poll: result independent of schedule", "statement": "With the collect or ignore policies, a multithreaded synchronous poll delivers the same child results, the same cumulative return code and the same set of fails as the single-threaded poll, whatever the order in which worker threads finish.", "quantifier": "all numbers of children, all result codes, all interleavings", "why_tests_cant": "interleavings are unbounded and not controllable from tests", "anchors": ["MEQ/src/NodeNursery.cc:syncPoll,mt_receiveSyncChildResult"]}
{"id": "C32", "title": "A synchronous child poll always finishes", "statement": "A multithreaded synchronous poll returns once the children have been executed.", "quantifier": "all schedules", "why_tests_cant": "deadlock freedom is a property of all interleavings", "anchors": ["MEQ/src/NodeNursery.cc:syncPoll,mt_receiveSyncChildResult", "MEQ/src/MTPool.cc:clearQueue"]}
{"id": "C33", "title": "Thread pool: bounded number of busy threads per depth", "statement": "At any moment the number of work orders of one tree depth being executed is at most max_busy.", "quantifier": "all schedules of workers and clients", "why_tests_cant": "interleavings are unbounded", "anchors": ["MEQ/src/MTPool.cc:getWorkOrder,finishWithWorkOrder,awakenWorker"]}
{"id": "C34", "title": "Forest registry consistency", "statement": "After any sequence of node creations and removals, each name maps to exactly one valid node carrying that name, no two live nodes share an index or a (non-empty) name, the number of valid nodes is counted exactly, and a failing creation changes only the error counter.", "quantifier": "all operation sequences", "why_tests_cant": "ranges over unboundedly many inputs; a test samples finitely many", "anchors": ["MEQ/src/Forest.cc:create,remove,get,findNode"]}
{"id": "C35", "title": "Forest index checks", "statement": "get/remove with an index that is not that of a live node throws.", "quantifier": "all forests and indices", "why_tests_cant": "ranges over unboundedly many inputs; a test samples finitely many", "anchors": ["MEQ/src/Forest.cc:get,remove,getRef"]}
{"id": "C36", "title": "Subscriptions behave as a set of patterns", "statement": "After subscribe, a message matches the subscriptions exactly if it matched before or matches the new mask and scope; subscribing twice changes nothing; merge is the union; removing a pattern never makes a message match that did not.", "quantifier": "all subscription histories and all messages", "why_tests_cant": "ranges over unboundedly many inputs; a test samples finitely many", "anchors": ["OCTOPUSSY/src/Subscriptions.cc:add,remove,merge,matches"]}
{"id": "C37", "title": "Subscriptions pack size accounting and round trip", "statement": "packSize() always equals the number of bytes pack writes, and unpacking packed subscriptions gives back the same subscriptions.", "quantifier": "all subscription histories", "why_tests_cant": "ranges over unboundedly many inputs; a test samples finitely many", "anchors": ["OCTOPUSSY/src/Subscriptions.cc:add,remove,pack,unpack"]}
{"id": "C38", "title": "Message queue is a stable priority queue", "statement": "A work process queue is always ordered by non-increasing priority, messages of equal priority are delivered in order of arrival, and enqueueing loses or duplicates no message; a held message goes back in front of those of equal priority.", "quantifier": "all sequences of enqueue/deliver operations", "why_tests_cant": "ranges over unboundedly many inputs; a test samples finitely many", "anchors": ["OCTOPUSSY/src/WPInterface.cc:enqueue,enqueueFront,do_poll,dequeue"]}
{"id": "C39", "title": "Dispatcher delivers a message to exactly the addressed work processes", "statement": "send() queues one copy of the message at each local work process whose address is matched by the destination (or whose subscriptions match, for published messages), plus one copy at each gateway that says it will forward it when the destination is not exactly this process, nothing anywhere else, and returns the number of copies.", "quantifier": "all sets of work processes, subscriptions, gateways and addresses", "why_tests_cant": "ranges over unboundedly many inputs; a test samples finitely many", "anchors": ["OCTOPUSSY/src/Dispatcher.cc:send"]}
{"id": "C40", "title": "Dispatcher polling is starvation free", "statement": "A work process with a deliverable message of priority p is polled within (M-p)+N polls, where M bounds message priorities and N is the number of work processes, however many messages arrive for others, as long as no more urgent message overtakes it at the head of its own queue and no work process holds a message while demanding immediate repolls; with overtaking a larger but still finite bound holds. While it waits the polling loop never goes to sleep.", "quantifier": "all arrival histories and all behaviours of the other work processes", "why_tests_cant": "fairness is a property of infinite histories", "anchors": ["OCTOPUSSY/src/Dispatcher.cc:poll", "OCTOPUSSY/src/WPInterface.cc:getPollPriority,do_poll"]}
{"id": "C41", "title": "Message serialisation round trip", "statement": "A message stored into blocks and rebuilt has the same id, addresses, priority, state, flags, hop count, data block and payload, and consumes exactly its own blocks.", "quantifier": "all messages", "why_tests_cant": "ranges over unboundedly many inputs; a test samples finitely many", "anchors": ["OCTOPUSSY/src/Message.cc:toBlock,fromBlock"]}
{"id": "C42", "title": "VellSet shape is the join of its components", "statement": "The shape of a VellSet after setting any sequence of conforming values, flags, weights and perturbed values is the per-axis maximum of their shapes, independent of order; a non-conforming array is refused and leaves the shape unchanged.", "quantifier": "all sequences of shapes of any rank", "why_tests_cant": "ranges over unboundedly many inputs; a test samples finitely many", "anchors": ["MEQ/src/VellSet.cc:adjustShape,setShape,verifyShape", "MEQ/src/Axis.h:mergeShape"]}
{"id": "C43", "title": "Fails accumulate in a VellSet", "statement": "addFail adds to the fails already recorded.", "quantifier": "all sequences of addFail", "why_tests_cant": "ranges over unboundedly many inputs; a test samples finitely many", "anchors": ["MEQ/src/VellSet.cc:addFail,clear"]}
{"id": "C44", "title": "Gateways do not forward messages in circles", "statement": "A gateway refuses to forward a message that already crossed a gateway, except server announcements, which stop after a fixed number of hops.", "quantifier": "all messages, destinations and gateway states", "why_tests_cant": "ranges over unboundedly many inputs; a test samples finitely many", "anchors": ["OCTOPUSSY/src/GatewayWP.cc:willForward"]}
{"id": "C45", "title": "Multithreaded evaluation executes every node exactly once", "statement": "When execute() of the root of a tree returns, every node of the tree has been executed exactly once, whatever the number of threads, and no work is left queued or running.", "quantifier": "all trees, pool sizes and thread schedules", "why_tests_cant": "interleavings are unbounded", "anchors": ["MEQ/src/NodeNursery.cc:syncPoll", "MEQ/src/MTPool.cc:workerLoop,getWorkOrder,finishWithWorkOrder"]}
{"id": "C46", "title": "Multithreaded evaluation always completes", "statement": "Evaluating a tree with any number of threads comes to an end with the root executed; the threads never wait for each other for ever.", "quantifier": "all trees, pool sizes and thread schedules", "why_tests_cant": "deadlocks depend on rare interleavings", "anchors": ["MEQ/src/NodeNursery.cc:syncPoll", "MEQ/src/MTPool.cc:getWorkOrder,awakenWorker", "MeqServer/src/meqserver_main.cc:main"]}
{"id": "C47", "title": "verifyShape recomputes the shape of a VellSet", "statement": "After arrays stored in a VellSet have been replaced, verifyShape() sets the shape to the per-axis maximum of the arrays stored now.", "quantifier": "all sequences of setters with arrays of any shape", "why_tests_cant": "ranges over unboundedly many inputs; a test samples finitely many", "anchors": ["MEQ/src/VellSet.cc:verifyShape,adjustShape,setShape", "MEQ/src/VellSet.h:91-113"]}
{"id": "C48", "title": "A failed VellSet holds nothing but its fails", "statement": "After addFail() a VellSet has no value, flags, weights or perturbed values.", "quantifier": "all VellSets", "why_tests_cant": "ranges over unboundedly many inputs; a test samples finitely many", "anchors": ["MEQ/src/VellSet.cc:addFail,clear", "MEQ/src/VellSet.h:330-338"]}
{"id": "C49", "title": "Domain equality compares axes and ranges", "statement": "operator== on domains is true exactly when both define the same axes with identical ranges, although it compares only the range array.", "quantifier": "all pairs of domains, however they were built", "why_tests_cant": "ranges over unboundedly many inputs; a test samples finitely many", "anchors": ["MEQ/src/Domain.h:operator==", "MEQ/src/Domain.cc:defineAxis,validateContent,envelope,expandToEnvelope"]}
{"id": "C50", "title": "Every domain can be copied and sent", "statement": "A domain that can be built by defineAxis() can be copied (or rebuilt from its record) and the copy is the same domain.", "quantifier": "all domains and axis ranges, IEEE binary64", "why_tests_cant": "ranges over unboundedly many inputs; a test samples finitely many", "anchors": ["MEQ/src/Domain.cc:defineAxis,validateContent"]}
{"id": "C51", "title": "A received domain record is checked before use", "statement": "Building a Domain from any record either succeeds or throws; it never writes outside the domain's arrays.", "quantifier": "all records", "why_tests_cant": "ranges over unboundedly many inputs; a test samples finitely many", "anchors": ["MEQ/src/Domain.cc:118-160", "MEQ/src/Axis.h:axis"]}
{"id": "C52", "title": "A regular grid tiles its interval", "statement": "setCells(axis,x0,x1,num) with num>0 and x0<x1 produces num equal cells that are contiguous and whose union is exactly [x0,x1).", "quantifier": "all rational intervals and cell counts (exact arithmetic)", "why_tests_cant": "ranges over unboundedly many inputs; a test samples finitely many", "anchors": ["MEQ/src/Cells.cc:setCells(int,double,double,int,double)"]}
{"id": "C53", "title": "A copy of a Cells has the same cells and segments", "statement": "Copying a Cells object (clone, or sending it as a record) preserves, for every axis, the number of cells, the centers, the sizes, the number of segments and their bounds.", "quantifier": "all Cells built by any sequence of setCells and recomputeDomain", "why_tests_cant": "ranges over unboundedly many inputs; a test samples finitely many", "anchors": ["MEQ/src/Cells.cc:validateContent"]}
{"id": "C54", "title": "Cells::superset merges compatible axes", "statement": "superset(a,b) returns an invalid ref exactly when an axis that both define disagrees in number of cells or in range; otherwise the result defines every axis that a or b defines, with a's grid where a defines it and b's elsewhere.", "quantifier": "all pairs of Cells built by any sequence of setCells", "why_tests_cant": "ranges over unboundedly many inputs; a test samples finitely many", "anchors": ["MEQ/src/Cells.cc:superset"]}
{"id": "C55", "title": "Resampling that changes nothing compares equal", "statement": "Constructing Cells from another with operation NONE on all axes gives cells for which compare() with the original is 0.", "quantifier": "all Cells with a domain", "why_tests_cant": "ranges over unboundedly many inputs; a test samples finitely many", "anchors": ["MEQ/src/Cells.cc:Cells(const Cells&,ops,args)", "MEQ/src/Cells.cc:compare"]}
{"id": "C56", "title": "A regular grid is one segment", "statement": "A grid of equal cells set by arrays, or produced by upsampling equal cells, has exactly one segment; the single segment declared by the regular setCells is uniform within the documented tolerance.", "quantifier": "all regular grids, exact and binary64", "why_tests_cant": "ranges over unboundedly many inputs; a test samples finitely many", "anchors": ["MEQ/src/Cells.cc:recomputeSegments", "MEQ/src/Cells.cc:setCells(int,double,double,int,double)"]}
{"id": "C57", "title": "A repeated request is answered from the cache", "statement": "A node that always caches answers a request it has just answered with the same result, the same code up to the 'updated' flag, and without asking its children or changing any other node.", "quantifier": "all graphs, cache contents, requests other than parameter updates", "why_tests_cant": "ranges over unboundedly many inputs; a test samples finitely many", "anchors": ["MEQ/src/Node.cc:620-700", "MEQ/src/Node.cc:919-1196"]}
{"id": "C58", "title": "Unpacking damaged bytes never reads outside the block", "statement": "Whatever bytes a block holds, unpacking it as a vector of strings, ids or fixed-size elements, as a vector of vectors or as a map gives a value or an exception, and never reads outside the block.", "quantifier": "all byte blocks, all element packers", "why_tests_cant": "ranges over unboundedly many inputs; a test samples finitely many", "anchors": ["DMI/src/Packer.h:427-458", "DMI/src/Packer.h:524-568"]}
{"id": "C59", "title": "Element-wise arithmetic broadcasts", "statement": "Adding, subtracting, multiplying, dividing or applying any two-argument function to two value arrays gives, at every index of their joint shape, the function of the two values at that index, arrays being constant along axes of extent 1 and axes they lack; arrays whose shapes disagree along some axis are refused; nothing outside the arrays is read or written.", "quantifier": "all arrays of up to 8 axes with any extents, all element functions", "why_tests_cant": "ranges over unboundedly many inputs; a test samples finitely many", "anchors": ["MEQ/src/Vells.cc:322-439", "MEQ/src/Vells.cc:934-957", "MEQ/src/Vells.h:640-762"]}
{"id": "C60", "title": "In-place arithmetic equals ordinary arithmetic", "statement": "a OP= b leaves in a the same shape and values as a = a OP b, or fails exactly when that fails; the data flags afterwards are the same too.", "quantifier": "all pairs of arrays, including those where the operation cannot be done in place", "why_tests_cant": "ranges over unboundedly many inputs; a test samples finitely many", "anchors": ["MEQ/src/Vells.cc:441-471", "MEQ/src/Vells.cc:1071-1091", "MEQ/src/Vells.h:948-957"]}
{"id": "C61", "title": "Adding zero and multiplying by zero or one are only shortcuts", "statement": "The special treatment of scalar zeros and ones in + and *, += and *= never changes the value seen at any index.", "quantifier": "all arrays; exact arithmetic and binary64 arithmetic", "why_tests_cant": "ranges over unboundedly many inputs; a test samples finitely many", "anchors": ["MEQ/src/Vells.h:912-939", "MEQ/src/Vells.h:962-992"]}
{"id": "C62", "title": "Reductions skip flagged points and count each other point once", "statement": "nelements, sum, product and mean over a shape count every unflagged point of the shape exactly once, however data and flags are collapsed along axes; min and max are the least and greatest unflagged value.", "quantifier": "all arrays, flags, masks and full shapes; exact arithmetic", "why_tests_cant": "ranges over unboundedly many inputs; a test samples finitely many", "anchors": ["MEQ/src/Vells.cc:796-921"]}
{"id": "C63", "title": "Flag operations act on exactly the flagged points", "statement": "Merging flags adds exactly the selected bits at every index; replacing flagged values changes exactly the flagged elements; two-argument min and max use an unflagged operand where the other is flagged; the complement of flags complements them.", "quantifier": "all flag arrays, masks and shapes", "why_tests_cant": "ranges over unboundedly many inputs; a test samples finitely many", "anchors": ["MEQ/src/Vells.cc:57-75", "MEQ/src/Vells.h:502-530", "MEQ/src/Vells.cc:1136-1178", "MEQ/src/Vells.cc:688-698"]}
{"id": "C64", "title": "A Function node depends on exactly the parameters its children depend on", "statement": "The spids of a Function's result are the spids of its children, each once, in increasing order.", "quantifier": "all numbers of children and all increasing spid lists", "why_tests_cant": "ranges over unboundedly many inputs; a test samples finitely many", "anchors": ["MEQ/src/Function.cc:308-366"]}
{"id": "C65", "title": "Perturbed values are the node's values at perturbed parameters", "statement": "If each child's VellSet gives its value at the current parameters and at each parameter perturbed, so does the VellSet of the Function node, for the composed function; a parameter whose spid is absent does not change the value. This extends to whole trees of Function nodes. Children may have different numbers of perturbation sets.", "quantifier": "all node classes, trees, spids, perturbations, tensor planes and patterns of missing data", "why_tests_cant": "ranges over unboundedly many inputs; a test samples finitely many", "anchors": ["MEQ/src/Function.cc:104-305", "MEQ/src/VellSet.h:150-160"]}
{"id": "C66", "title": "A Function node fails only if something is wrong", "statement": "With compatible shapes, non-failing children and an evaluate() that accepts its arguments, getResult() returns a result in which no plane is a fail, and a plane has no value exactly if all arguments are missing, or one is and missing data is not allowed.", "quantifier": "all children, dimensions and patterns of missing data", "why_tests_cant": "ranges over unboundedly many inputs; a test samples finitely many", "anchors": ["MEQ/src/Function.cc:119-212"]}
{"id": "C67", "title": "A Function's flags are the masked union of its children's flags", "statement": "A flag bit of the result is set at a point exactly if some child whose value counts has it set there and the child's flag mask includes it; there are no flags if nothing can be let through.", "quantifier": "all children, flag shapes, masks and points", "why_tests_cant": "ranges over unboundedly many inputs; a test samples finitely many", "anchors": ["MEQ/src/Function.cc:96-101", "MEQ/src/Vells.cc:57-75"]}
{"id": "C68", "title": "A Function's return code and fails tell what went wrong", "statement": "getResult() returns RES_FAIL if all planes are fails, RES_MISSING if all are without data and 0 otherwise; a plane with failing children carries their fails.", "quantifier": "all children, dimensions and patterns of fails and missing data", "why_tests_cant": "ranges over unboundedly many inputs; a test samples finitely many", "anchors": ["MEQ/src/Function.cc:160-212", "MEQ/src/Function.cc:284-305", "MEQ/src/VellSet.cc:591-623"]}
{"id": "C69", "title": "A polynomial funklet has the value of its polynomial at every cell centre", "statement": "Evaluating a Polc on cells within its domain gives, at every cell, the value of the polynomial with the stored coefficients at the cell centre made relative with the offset and scale of each axis.", "quantifier": "all coefficient arrays of one or two axes, offsets, scales (zero included), axis assignments, grids and axis functions", "why_tests_cant": "The value is computed by Horner loops over strided storage in four different shapes of code; a unit test samples a few orders and grids.", "anchors": ["MEQ/src/Polc.cc:160-380", "MEQ/src/Funklet.cc:438-463"]}
{"id": "C70", "title": "A perturbed value of a funklet is its value with one coefficient perturbed", "statement": "A solvable Polc asked for perturbed values reports for each spid and perturbation set a perturbation and exactly one perturbed value, which is what the funklet evaluates to after its coefficient of that spid is changed by that perturbation.", "quantifier": "all polynomials, coefficient masks, perturbations, grids and both perturbation sets", "why_tests_cant": "Perturbed values come from a shortcut (adding the perturbation times powers of the coordinates); that it agrees with re-evaluation is an algebraic fact about all orders and grids.", "anchors": ["MEQ/src/Polc.cc:246-380", "MEQ/src/Funklet.cc:438-463"]}
{"id": "C71", "title": "Updating a funklet adds each solution to the coefficient of its spid", "statement": "update() adds the i-th value to the coefficient that owns the i-th spid and leaves the others alone; updating by exactly one reported perturbation makes the funklet evaluate to the corresponding perturbed value.", "quantifier": "all polynomials, masks, values and grids", "why_tests_cant": "The solver relies on derivative, spid and update indexing agreeing for every mask.", "anchors": ["MEQ/src/Polc.cc:383-397", "MEQ/src/Funklet.cc:267-321"]}
{"id": "C72", "title": "Spids of a funklet are consecutive and identify its coefficients", "statement": "makeSolvable(spid0) gives the funklet the spids spid0, spid0+1, ..., one per solvable coefficient in storage order; getCoeffIndex names the coefficient of a spid; the polynomial itself is not changed.", "quantifier": "all shapes, masks and first spids", "why_tests_cant": "Index bookkeeping over all masks; tests use full masks.", "anchors": ["MEQ/src/Funklet.cc:267-358", "MEQ/src/Polc.cc:488-524"]}
{"id": "C73", "title": "Changing the solve domain does not change the function a funklet stands for", "statement": "changeSolveDomain maps the validity domain of a Polc onto the solve domain and recomputes the coefficients so that the polynomial is the same function of physical coordinates.", "quantifier": "all polynomials, offsets, scales, validity domains and solve domains", "why_tests_cant": "It is a binomial identity over all orders; a test would compare a few numbers within a tolerance.", "anchors": ["MEQ/src/Polc.cc:440-484", "MEQ/src/Polc.cc:527-597"]}
{"id": "C74", "title": "Enlarging the coefficient array of a funklet keeps its value", "statement": "setCoeffShape keeps the coefficients both shapes have, fills new ones with zero and so keeps the value when the shape grows.", "quantifier": "all old and new shapes", "why_tests_cant": "Rearranging strided storage for arbitrary shapes.", "anchors": ["MEQ/src/Polc.cc:632-680", "MEQ/src/Funklet.cc:361-367"]}
{"id": "C75", "title": "Solvable parameters of different nodes have different spids and usable perturbations", "statement": "The spids that Parm nodes give to their funklets never coincide for different nodes, and the perturbations handed out are not zero.", "quantifier": "all pairs of nodes and funklets", "why_tests_cant": "Needs funklets larger than tests use.", "anchors": ["MeqNodes/src/Parm.cc:185-213"]}
{"id": "C76", "title": "Solver tile counting follows the cells", "statement": "While the Solver visits the cells of the request in row-major order and advances a tiling, the current tile is always the one that contains the cell; every tile number below the total is used, and two cells have the same number exactly when they lie in the same tile along every axis. Tiles that do not divide the grid are cut at its end.", "quantifier": "all grids (any number of axes, some undefined), all tile sizes", "why_tests_cant": "The tile pointer is advanced incrementally with precomputed strides; tests use a few grids with tiles that divide them.", "anchors": ["MeqNodes/src/Solver.cc: Tiling::init", "MeqNodes/src/Solver.cc: Tiling::advance", "MeqNodes/src/Solver.cc: fillEquations"]}
{"id": "C77", "title": "Solver tiles are the smallest made of whole parm tiles", "statement": "Given the spid map of the children (a tile size per axis for each spid), the Solver divides the grid along each axis into the smallest tiles that are made of whole tiles of every spid, or takes the whole axis; so every tile of every parm lies in one subsolver.", "quantifier": "all grids, all spid maps", "why_tests_cant": "Depends on the tilings of all parms of the tree at once.", "anchors": ["MeqNodes/src/Solver.cc: populateSpidMap"]}
{"id": "C78", "title": "Solver unknowns correspond one to one to parm tiles", "statement": "After populateSpidMap every spid has one unknown per tile of its tiling, unknowns of different spids or tiles are different, those of a solve group and solver tile are numbered from 0 without gaps in one subsolver, and the number of unknowns is the sum of the numbers of tiles.", "quantifier": "all grids, all spid maps with distinct spids, solve groups and tile sizes", "why_tests_cant": "Needs all combinations of tilings; the failures are wrong numbers, not exceptions.", "anchors": ["MeqNodes/src/Solver.cc: populateSpidMap"]}
{"id": "C79", "title": "Solver updates reach the parm they belong to", "statement": "The vector of updates that the Solver sends to a node has, for each spid of that node in increasing order, exactly its unknowns, each once, in the order of its tiles (the order in which a parm applies them).", "quantifier": "all grids, all spid maps, all nodes", "why_tests_cant": "A permuted update vector has the right length and type; the solution just fails to converge.", "anchors": ["MeqNodes/src/Solver.cc: fillRider", "MeqNodes/src/Solver.cc: populateSpidMap"]}
{"id": "C80", "title": "Equations and updates use the same unknown", "statement": "A derivative with respect to a spid in a cell is added to the equations of the unknown whose solution is sent back as the update of that spid in the tile with the cell.", "quantifier": "all grids, all spid maps, all cells", "why_tests_cant": "Would need a numerical solution compared with an independent one for every combination of tilings.", "anchors": ["MeqNodes/src/Solver.cc: fillEquations", "MeqNodes/src/Solver.cc: fillRider"]}
{"id": "C81", "title": "A cached result is released by the last parent that lets go, not before", "statement": "After a node has stored a result, its parents give hints to hold or release it. The result stays until all (active) parents have given a hint; it is then dropped exactly when it depends on the domain, the policy is below CACHE_ALWAYS, and (for policies above CACHE_MINIMAL) none of the first round of hints was a hold. Until dropped it is unchanged.", "quantifier": "all nodes, policies, dependency masks, numbers of parents and sequences of hints", "why_tests_cant": "Needs every sequence of hints from any number of parents; a cache that is dropped too early or too late gives the same results.", "anchors": ["MEQ/src/Node.cc: holdCache", "MEQ/src/Node.cc: holdChildCaches"]}
{"id": "C82", "title": "The Solver's threads solve every subsolver exactly once", "statement": "When activateSubsolverWorkers returns, each subsolver that had not converged has been solved exactly once, they were taken in order, no thread is still working on one, and the number of converged subsolvers is the one the single-threaded loop would have counted. It throws exactly when one of the subsolvers that had not converged throws, as the single-threaded loop does.", "quantifier": "all numbers of worker threads and subsolvers, outcomes of subsolvers, interleavings of the threads, wake-ups without a broadcast, and histories of earlier activations, stops and starts", "why_tests_cant": "A race depends on the schedule: tests see only a few of the interleavings.", "anchors": ["MeqNodes/src/Solver.cc: activateSubsolverWorkers", "MeqNodes/src/Solver.cc: processSolversLoop", "MeqNodes/src/Solver.cc: workerLoop"]}
{"id": "C83", "title": "No two threads of the Solver work on the same subsolver, shared data are used under their lock", "statement": "At any time at most one thread works on a subsolver, it has not been solved before in this activation and had not converged; queue, counters and exceptions are touched by the owner of worker_cond_ only, the exit flags are cleared and checked by the owner of worker_exit_cond_ only.", "quantifier": "all reachable states of any number of threads and subsolvers", "why_tests_cant": "Needs every interleaving.", "anchors": ["MeqNodes/src/Solver.cc: processSolversLoop", "MeqNodes/src/Solver.cc: workerLoop"]}
{"id": "C84", "title": "The Solver's threads never block each other for ever", "statement": "While the main thread is activating the workers or stopping them, some thread can go on, and the number of steps is bounded in terms of threads and subsolvers (spurious wake-ups raise the bound by a constant each); so activateSubsolverWorkers comes back, and stopWorkerThreads comes back with no threads left.", "quantifier": "all reachable states, schedules and numbers of spurious wake-ups", "why_tests_cant": "A deadlock or a lost wake-up shows only under a particular interleaving.", "anchors": ["MeqNodes/src/Solver.cc: activateSubsolverWorkers", "MeqNodes/src/Solver.cc: stopWorkerThreads", "MeqNodes/src/Solver.cc: workerLoop"]}
{"id": "C85", "title": "When subsolvers throw, the same exceptions are reported whatever the schedule", "statement": "If subsolvers throw in worker threads, the number of exceptions collected and the set of subsolvers solved do not depend on the schedule of the threads.", "quantifier": "all schedules", "why_tests_cant": "Needs two schedules of the same activation.", "anchors": ["MeqNodes/src/Solver.cc: processSolversLoop"]}
{"id": "C86", "title": "Condeq gives the residual and its derivatives at every cell", "statement": "For LHS and RHS children whose VellSets tell how they depend on the solvable parameters, each plane of Condeq's result has, at every cell, the value RHS - LHS; its spids are those of the two children in order; for every spid its one perturbed value is, at every cell, the rate of change of LHS - RHS over the perturbation (over the distance of the two perturbations if there are two sets), and its perturbation is the step; all Vells of a plane are real or all are complex.", "quantifier": "all values of any shapes, tensor dimensions, spids, one or two sets of perturbations, mixtures of real and complex", "why_tests_cant": "Needs all combinations of common and separate spids, real and complex values and shapes; wrong derivatives only slow the solution down.", "anchors": ["MeqNodes/src/Condeq.cc: calcDerivative", "MeqNodes/src/Condeq.cc: getResult"]}
{"id": "C87", "title": "Derivatives of equations that are affine or quadratic in a parameter are exact", "statement": "If LHS - RHS at a cell is affine in a parameter, the derivative Condeq gives is its coefficient, so changing the parameter by d satisfies the equation there exactly if d times the derivative equals the value; if it is quadratic, the derivative is exact with two sets of opposite perturbations, and off by the perturbation times the quadratic coefficient with one.", "quantifier": "all equations, parameters, cells and perturbations", "why_tests_cant": "Numerical tests accept the error of one-sided differences.", "anchors": ["MeqNodes/src/Condeq.cc: calcDerivative", "MeqNodes/src/Condeq.cc: getResult"]}
{"id": "C88", "title": "Condeq combines flags and takes weights from the third child", "statement": "At every cell the flags of an equation are the union of those of the two sides, and there are none if neither has any; its weights are those of the third child, or none if that is absent or has no value.", "quantifier": "all shapes of flags, tensor dimensions", "why_tests_cant": "Flag arrays of different shapes are spread over the grid.", "anchors": ["MeqNodes/src/Condeq.cc: getResult"]}
{"id": "C89", "title": "Condeq with a modulo", "statement": "With modulo m the value is RHS - LHS brought to at most m/2 in size by a multiple of m, and as long as a perturbation changes each side by less than m/2, derivatives are those of the sides without modulo.", "quantifier": "all real values and moduli", "why_tests_cant": "Only shows at the borders of the interval.", "anchors": ["MeqNodes/src/Condeq.cc: calcDerivative", "MeqNodes/src/Condeq.cc: getResult"]}
{"id": "C90", "title": "Condeq planes without data", "statement": "A plane of the result is without a value exactly if one of the sides is; fails in a plane of a child are kept.", "quantifier": "all results of children", "why_tests_cant": "Needs partially failed children.", "anchors": ["MeqNodes/src/Condeq.cc: getResult"]}
{"id": "C91", "title": "Every usable cell of every Condeq gives the Solver exactly its equations", "statement": "For every VellSet that the Solver's children return, each cell that carries none of the flags of the Solver's flag mask and has a positive weight gives one linear equation (a real and an imaginary one for complex values) for each solve group the VellSet depends on, and no other cell gives any. The right hand side is the residual at that cell, the weight is the weight at that cell, and the coefficients are the derivatives at that cell, each for the unknown that belongs to the spid and the tile the cell lies in; axes along which values, flags, weights or derivatives are constant may be missing. Subsolvers that have converged get no equations.", "quantifier": "all cell shapes (up to 8 axes), all sets of spids tiled alike, all VellSets, flags, masks, weights, and convergence states", "why_tests_cant": "Tests compare fits on a few grids. Whether strides of five kinds of arrays stay in step with the tiling of the Solver, for every shape, broadcast and tile size, depends on all cells at once.", "anchors": ["MeqNodes/src/Solver.cc", "MEQ/src/Vells.cc"]}
{"id": "C92", "title": "Numbers solve the Solver's equations just if they cancel the residuals", "statement": "Any assignment of numbers to unknowns satisfies all equations that fillEquations makes from a list of VellSets just if, at every cell in use and for every solve group, the residual is the sum over the VellSet's spids of that group of the derivative times the number for that spid and tile. Fails and VellSets without a value add no equations.", "quantifier": "all assignments of numbers, all lists of VellSets (real or complex), all tilings alike", "why_tests_cant": "It is an equivalence over all assignments; a test can only try a few and never shows that no equation is missing.", "anchors": ["MeqNodes/src/Solver.cc"]}
{"id": "C93", "title": "A solution, sent to the parms, brings the residuals to zero", "statement": "With one solve group and residuals linear in the parameters: numbers solve the equations just if, after each parm adds the numbers sent to it (in the order spid by spid, tile by tile, in which Solver sends them), the residuals vanish at every cell in use.", "quantifier": "all cell shapes, all sets of spids of any number of parms tiled alike, all VellSets, all assignments", "why_tests_cant": "Equations and updates use separate tables (ssuki, uk slices, node maps), which must agree for every tiling; a wrong permutation still converges in small tests with one tile or one spid.", "anchors": ["MeqNodes/src/Solver.cc"]}
{"id": "C94", "title": "A spid the Solver does not know fails the request", "statement": "If a child's result has a perturbed value for a spid that no solvable parm reported, fillEquations throws: it neither drops the derivative nor uses one of another spid.", "quantifier": "all solver states, VellSets, masks, shapes", "why_tests_cant": "Depends on the table for every state; tests always discover spids and results consistently.", "anchors": ["MeqNodes/src/Solver.cc"]}
{"id": "C95", "title": "Tiled parameters are cut into the Solver's tiles", "statement": "A Parm with tiling makes one domain per tile, as many and in the same order as the Solver counts tiles of those sizes (last axis fastest). The centre of every cell of the request is inside the domain of the cell's own tile and outside all others. A Parm that starts from a single funklet gets a copy of it, with the same coefficients, for every tile.", "quantifier": "All grids of up to 8 axes with cells in order and without overlap, all tile sizes (also larger than the grid, and for axes without cells), all funklets.", "why_tests_cant": "Tests use a few regular grids; the order has to agree between two pieces of code that never meet, and the last tile of an axis may be shorter.", "anchors": ["MeqNodes/src/Parm.cc:251-365", "MEQ/src/ComposedPolc.cc:130-173", "MEQ/src/Domain.cc:219-242"]}
{"id": "C96", "title": "A tiled constant has the coefficient of its tile in every cell", "statement": "Evaluating a tiled Parm with constant funklets over the cells it was tiled for gives, in each cell, the coefficient of the tile that the cell is in; the perturbed values are that plus and minus the perturbation. After a solution the value is the old one plus the solution's value for the tile of the cell.", "quantifier": "All grids, tile sizes, coefficients, perturbations, default values and solutions, for 0, 1 or 2 sets of perturbed values.", "why_tests_cant": "The code searches cells by comparing centres with domains and fills flat arrays by computed index; the shapes depend on which axes are tiled.", "anchors": ["MEQ/src/ComposedPolc.cc:176-441", "MEQ/src/ComposedPolc.h:75-83", "MEQ/src/ComposedPolc.cc:449-474"]}
{"id": "C97", "title": "Solutions go to the coefficients of their own tile", "statement": "An update of a tiled Parm with n tiles adds number s*n+t of the solution to the coefficient with spid number s in tile t, leaves the coefficients that are not solvable, and changes no domain: the order in which the Solver keeps unknowns (by spid, then by tile).", "quantifier": "All tiled parameters with any number of coefficients, any mask of solvable coefficients, all solutions that are long enough.", "why_tests_cant": "A mistake in the numbering mixes up tiles but still converges in tests with one tile or one coefficient.", "anchors": ["MEQ/src/ComposedPolc.cc:449-474"]}
{"id": "C98", "title": "Tiles are kept from request to request if their domains are the same", "statement": "A tiled Parm that meets cells with the same tile domains keeps all its coefficients. Cells that give another number of tiles restart every tile from the coefficients of the first tile. Cells that give only one tile leave the old tiles in place.", "quantifier": "All tiled parameters, grids and tile sizes.", "why_tests_cant": "Depends on the history of requests and on comparisons of many domains.", "anchors": ["MeqNodes/src/Parm.cc:287-365"]}
{"id": "C99", "title": "Perturbed values of tiled polynomials", "statement": "The perturbed value of a tiled polynomial for each solvable coefficient would be the polynomial of the cell's tile with that coefficient perturbed. This is false: in a tile of a single cell only the values for the first coefficient are set and the others keep the default value. Nor do cells outside all funklets keep the default value (a funklet before the first cell sets it), nor does a copy have the same values.", "quantifier": "Refuted by concrete parameters: 5 cells in tiles of 2 with a polynomial of two coefficients.", "why_tests_cant": "Appears only if the number of cells leaves one over, and only as a wrong derivative.", "anchors": ["MEQ/src/ComposedPolc.cc:307-355", "MEQ/src/ComposedPolc.cc:273-282", "MEQ/src/ComposedPolc.cc:47-53"]}
{"id": "C100", "title": "MatrixMultiply computes the product of its children", "statement": "For children whose results are scalars, vectors or matrices with matching dimensions, MatrixMultiply gives their product: each element of the result has, at every cell and for every perturbation of a solvable parameter, the value of the product of the children's elements (sum over the common index), whatever the shapes of the arrays and the shortcuts taken for zeros and ones. If a scalar factor is null the product may be given as a single null or missing VellSet; it is then zero throughout. The dimensions of the result are not always those of the product, and children that do not fit are not always refused.", "quantifier": "all numbers of children, all dimensions, all arrays that fit the grid, all sets of parameters and perturbations", "why_tests_cant": "The result depends on shortcuts for null and unity values, on the order of spids of all factors and on array shapes; tests cover a few 2x2 products.", "anchors": ["MeqNodes/src/MatrixMultiply.cc:39-417"]}
{"id": "C101", "title": "Flags and fails of matrix products", "statement": "For the product of two matrices: element (i,k) fails exactly if an element of row i of the left or of column k of the right factor fails, and its record is one of theirs; the node fails if all elements do. Otherwise a flag bit is set at a cell exactly if it is set, and not masked out for that child, in a factor of one of the terms neither of whose factors is null. The same goes for a scalar that is neither a constant 0 or 1 times a tensor. For constant 0 and 1 it does not hold: fails are lost, and masked flags stay.", "quantifier": "all dimensions, all flags, masks, positions of fails and null values", "why_tests_cant": "Combinations of masks, null values and fails over all positions cannot be enumerated.", "anchors": ["MeqNodes/src/MatrixMultiply.cc:53-214", "MeqNodes/src/MatrixMultiply.cc:230-239", "MeqNodes/src/MatrixMultiply.cc:292-404"]}
{"id": "C102", "title": "Matrix products do not depend on grouping", "statement": "For three children that can be multiplied both ways, one MatrixMultiply node over all three and nested nodes a*(b*c) give results with the same dimensions and elements.", "quantifier": "all tensors and dimensions that fit both ways", "why_tests_cant": "A statement about all values and dimensions, including one-element products that turn into scalars.", "anchors": ["MeqNodes/src/MatrixMultiply.cc:240-290"]}
{"id": "C103", "title": "A Transpose node transposes each matrix of a tensor", "statement": "For a child Result of dimensions [...,nx,ny] (consistent with its VellSets) the MeqTranspose node gives a Result of dimensions [...,ny,nx] whose element [...,i,j] is the child's element [...,j,i], conjugated if its option conj is set (value and perturbed values; flags, spids and perturbations unchanged; fails unchanged); a vector is taken as a column, unless its option tensor is set; transposing twice gives the child's Result back.", "quantifier": "all tensors of any rank and size, all VellSets (values, fails, missing, perturbed)", "why_tests_cant": "The index arithmetic must be right for every rank and every pair of dimensions, and degenerate dimensions (1) take different code paths.", "anchors": ["MeqNodes/src/Transpose.cc:70-152", "MEQ/src/Result.cc:206-268"]}
{"id": "C104", "title": "A Selector gives the numbered VellSets, or a slice of the tensor", "statement": "With `multi` or one index, the Selector's Result holds for each index the VellSet of that number, or a fail if there is none. With one index per axis, negative indices standing for whole axes, its element is the child's element at the index made of the given numbers and the element's own index; an index out of range is refused. The return code is FAIL or MISSING exactly if all VellSets selected are.", "quantifier": "all selections and all tensors of any rank", "why_tests_cant": "The loop over the slice keeps counters per axis and updates the offset incrementally; whether it visits the right elements depends on the combination of sliced axes and their extents.", "anchors": ["MeqNodes/src/Selector.cc:53-178"]}
{"id": "C105", "title": "A Paster replaces exactly the selected elements", "statement": "A Paster puts the second child's VellSets into the first child's tensor at the selected numbers or slice and leaves all other elements alone; selecting what was pasted gives it back, pasting what was selected changes nothing; sizes or dimensions that do not match are refused.", "quantifier": "all selections and tensors of any rank", "why_tests_cant": "Which elements are written depends on the same incremental offsets as in the Selector; writes just past the end extend the Result silently.", "anchors": ["MeqNodes/src/Paster.cc:54-161", "DMI/src/Vec.cc:802-824"]}
{"id": "C106", "title": "A Composer strings together the VellSets of its children", "statement": "Without dims the Composer's Result is the children's VellSets in order. With dims it has these dimensions and the same VellSets in row-major order; if there are too few, empty VellSets follow. The return code is FAIL or MISSING exactly if all VellSets are fails, or all are missing; too many VellSets for the dims are an error.", "quantifier": "all numbers of children, all Results and dims", "why_tests_cant": "The Result is filled by appending with a running index; sizes that do not fit only show later, when the Result is copied.", "anchors": ["MeqNodes/src/Composer.cc:59-187", "MEQ/src/Result.cc:158-183"]}
{"id": "C107", "title": "A Composer in tensor mode stacks its children", "statement": "With dims=[0], children that are tensors of the same dimensions d, scalars or empty make a Result of dimensions [number of children]+d whose part number k is child k, scalars being repeated and empty Results standing for missing VellSets; tensors of different dimensions are refused; the return code is FAIL or MISSING exactly if all VellSets are fails, or all are missing.", "quantifier": "all numbers of children and all Results", "why_tests_cant": "Counts of fails and missing data are kept separately from the number of VellSets; they only disagree for particular mixtures of tensors, scalars and empty Results.", "anchors": ["MeqNodes/src/Composer.cc:59-187"]}
{"id": "C108", "title": "A parameter table gives back what was last saved for the domains asked for", "statement": "After any sequence of saves, deletions and reopenings, asking a FastParmTable for a name and a domain gives exactly the funklets last saved under that name (and not deleted since) for the domains that have a point in common with it, each once, in the order in which these domains were first saved; saving returns the number of the funklet's domain, whatever database id the funklet carries; deleting what is not there is an error.", "quantifier": "all histories of any length, names and domains, provided different domains differ by more than 1e-16", "why_tests_cant": "What is found depends on the whole history of names and domains: keys are built from a number that depends on all domains saved before, and on hints carried by funklets.", "anchors": ["MEQ/src/FastParmTable.cc:187-451", "MEQ/src/FastParmTable.cc:489-544"]}
{"id": "C109", "title": "Funklets come back from a parameter table as they were saved", "statement": "A funklet read from a table has the class, coefficients, perturbation, weight and domain it was saved with.", "quantifier": "all funklets, all histories of the table", "why_tests_cant": "Constant polynomials take a different path through the code than all others; the difference shows only in fields that a test comparing values does not look at.", "anchors": ["MEQ/src/FastParmTable.cc:195-268", "MEQ/src/FastParmTable.cc:380-418", "MEQ/src/Polc.h:99-100"]}
{"id": "C110", "title": "Saving a parameter again for the same domain replaces its value", "statement": "Of two funklets saved one after the other under the same name for the same domain, only the second is kept.", "quantifier": "all histories and domains, also domains that are very close to each other", "why_tests_cant": "Domains are compared with a tolerance, which is not transitive; only particular sequences of nearly equal domains show it.", "anchors": ["MEQ/src/FastParmTable.cc:340-358", "MEQ/src/FastParmTable.cc:507-520"]}
{"id": "C111", "title": "Values in a parameter table are read within their bounds", "statement": "The blocks of a funklet stored in a table are read back unchanged; a damaged value is refused with an error, or is read as the blocks it consists of, but never beyond its end.", "quantifier": "all sets of blocks and all byte strings", "why_tests_cant": "Sizes from the file are added up and converted between integer types; only particular damaged values pass the checks.", "anchors": ["MEQ/src/FastParmTable.cc:228-252", "MEQ/src/FastParmTable.cc:392-412"]}
{"id": "C112", "title": "A parameter table survives an incomplete write of its list of domains", "statement": "If the last entry of the list of domains was written only in part, the table opens with all complete entries, and what is saved afterwards is found again, also after reopening.", "quantifier": "all histories and all places at which the entry may have been cut off", "why_tests_cant": "It needs a crash at a particular moment and two reopenings.", "anchors": ["MEQ/src/FastParmTable.cc:58-90", "MEQ/src/FastParmTable.cc:127-152", "MEQ/src/FastParmTable.cc:361-370"]}
{"id": "C113", "title": "A parameter loads what it saved", "statement": "What a Parm saves for a domain - a funklet, or the tiles of a composed one - is what a Parm of that name loads for that domain, and saving it again changes only what is stored for that domain.", "quantifier": "all histories of the table, solvable and non-solvable, tiled and untiled parameters", "why_tests_cant": "It fails only if earlier runs left funklets for overlapping or nearly identical domains in the table.", "anchors": ["MeqNodes/src/ParmDBInterface.cc:323-407", "MEQ/src/ParmTable.h:58-59"]}
{"id": "C114", "title": "MergeFlags with several children ORs in exactly the flags that face each element", "statement": "The result of a MeqMergeFlags node with several children is the first child's result with more flags: bit b of the flags of element i at a point is set exactly if the first child has it set there, or some other child has it set at an element facing element i (the same element if the dimensions are the same; every element if one of the two is a scalar, or if merge_all is set) and has it in its mask. An element has no flags only if nothing was there to merge. Values are unchanged and carry the flags. Dimensions that do not match are refused unless the child's mask is 0 or it has no VellSets.", "quantifier": "all numbers of children, masks, dimensions, shapes of flags that can be spread over a common shape, flag values, points and bits", "why_tests_cant": "the combinations of dimensions, masks, flag shapes (each flag array may lack axes) and merge orders are unbounded", "anchors": ["MeqNodes/src/MergeFlags.cc:46-160", "MEQ/src/Vells.cc:57-74", "MEQ/src/VellSet.cc:500-520", "MEQ/src/Function.cc:58-94"]}
{"id": "C115", "title": "MergeFlags with one child gives all elements the flags of all", "statement": "A MeqMergeFlags node with one child of two or more elements gives every element the same flags: bit b at a point is set exactly if the mask has it and some element had it there. Nothing changes if there is one element, no element has flags, or the mask is 0. The documented rule that every child's flags are masked by its mask is wrong: the mask of the first child is ignored when there are others, and a single child is not masked in the three cases just named.", "quantifier": "all numbers of elements, masks, flags, points and bits", "why_tests_cant": "a test fixes the number of elements and the masks; the exceptions are at particular masks", "anchors": ["MeqNodes/src/MergeFlags.cc:57-93", "MeqNodes/src/MergeFlags.h:37-45"]}
{"id": "C116", "title": "ZeroFlagger sets the flag bit exactly where the comparison holds", "statement": "For a VellSet with a real value and no flags, a MeqZeroFlagger gives flags that are the flag bit at the points where the value compares with zero as asked, and 0 elsewhere; with NaNs only 'ne' holds. The documented OR with existing flags does not take place: if the comparison holds anywhere, all earlier flags are lost; if it holds nowhere they are kept, or replaced by zeros when output is forced.", "quantifier": "all operators, flag bits, values (any arithmetic with a sign, NaN included), shapes and earlier flags", "why_tests_cant": "values, shapes and earlier flags are unbounded; losing flags depends on values elsewhere in the array", "anchors": ["MeqNodes/src/ZeroFlagger.cc:71-138", "MeqNodes/src/ZeroFlagger.h:40-51"]}
{"id": "C117", "title": "MergeFlags(X, ZeroFlagger(X)) adds flags without losing any", "statement": "Merging the flags of a ZeroFlagger back into its argument gives, at every point, the argument's flags ORed with the flag bit where the comparison holds, for tensors of any dimensions, elements with or without a value, forced output or not.", "quantifier": "all dimensions, real values, shapes, earlier flags, operators and flag bits", "why_tests_cant": "depends on the interplay of two nodes for all values and shapes, in particular on the case where the comparison holds nowhere", "anchors": ["MeqNodes/src/ZeroFlagger.cc:71-138", "MeqNodes/src/MergeFlags.cc:57-160"]}
{"id": "C118", "title": "ReplaceFlaggedValues replaces exactly the flagged points, in all perturbed values too", "statement": "The result of a MeqReplaceFlaggedValues node has the first child's flags, and as main value and as perturbed value for every spid those of the first child with the points replaced at which another child has flags that its mask lets through; all other points keep their value. It succeeds if the first child's values vary along all axes the flags do. Flags of a child whose value is identically zero are ignored.", "quantifier": "all numbers of children, masks, flags, values (real or complex), spids and perturbation sets", "why_tests_cant": "flags are broadcast against values of different shapes, for every perturbed value of every spid of every child", "anchors": ["MeqNodes/src/ReplaceFlaggedValues.cc:50-77", "MEQ/src/Vells.h:502-528", "MEQ/src/Function.cc:214-283"]}
{"id": "C119", "title": "Slicing visits every element of data and flags exactly once", "statement": "A slicer over any set of different axes (VellsSlicer, VellsSlicerWithFlags) yields one slice for every position in the shape that remains when these axes are collapsed, in row-major order; the slice at a position consists of exactly the elements, and flags, with these coordinates along the other axes, whatever the shapes of data and flags as long as they can be broadcast. Every element belongs to one slice. More axes than there are is an error.", "quantifier": "all shapes, ranks, flag shapes, sets and orders of axes, positions and elements", "why_tests_cant": "the pointers are moved by strides precomputed for every combination of sliced and iterated axes; a wrong stride shows only for some shapes", "anchors": ["MEQ/src/VellsSlicer.cc:33-119", "MEQ/src/VellsSlicerWithFlags.cc:33-167", "MEQ/src/Vells.h:700-761"]}
{"id": "C120", "title": "A reduction along axes is applied to each slice", "statement": "A node reducing along axes computes at each remaining position the reduction of exactly the values and flags at that position, and throws if the reduction throws for one; so a mean is the average of the unflagged values there, and a sum or product includes everything there. Holds when nothing varies along an axis after the reduced ones; over other axes it is violated.", "quantifier": "all shapes, values, flags, masks, reductions and sets of axes", "why_tests_cant": "depends on the memory layout of the slice: reductions read contiguous memory, which is the slice only for trailing axes", "anchors": ["MeqNodes/src/ReductionFunction.cc:89-157", "MEQ/src/Vells.h:429-442", "MeqNodes/src/Mean.cc:41-47", "MeqNodes/src/Sum.cc:33-42"]}
{"id": "C121", "title": "A sum along axes does not depend on how compactly the child is stored", "statement": "Reducing along axes gives the same values for a child that does not vary along an axis as for one with the values written out over that axis. Holds for reduced axes; violated for axes that remain. Rms and StdDev leave out flagged values: violated.", "quantifier": "all shapes and full shapes, with some axes collapsed", "why_tests_cant": "needs the same values in two representations, over all shapes", "anchors": ["MeqNodes/src/ReductionFunction.cc:127-157", "MEQ/src/Vells.cc:880-898", "MeqNodes/src/Rms.cc:38-52"]}
{"id": "C122", "title": "A reduction is flagged where everything that went into it is", "statement": "The result of a reduction over all points or along axes has the flags of the mask exactly where all points reduced are flagged, ORed into flags already there. Holds for odd masks if any flag counts as flagged, in particular for the default mask, along trailing axes; violated for even masks, where all is flagged, for partial masks, and for other axes; for flags of a vector the node fails.", "quantifier": "all shapes, flags, masks, sets of axes", "why_tests_cant": "an operator precedence mistake is invisible with the default mask", "anchors": ["MeqNodes/src/ReductionFunction.cc:76-103", "MeqNodes/src/ReductionFunction.cc:197-243"]}
{"id": "C123", "title": "A reduction across children is flagged where all children are", "statement": "With several children (up to 30) a point of the result gets the flags of all masks together exactly where each child is flagged under its mask, broadcasting the children's flags, and keeps the flags it had elsewhere; a child that is null, has no flags or an empty mask prevents flagging. With 31 children a bit is shifted out of an int.", "quantifier": "all numbers of children up to 30, masks, flag shapes and contents", "why_tests_cant": "counts children by bits in a temporary, over all flag shapes and combinations of children", "anchors": ["MeqNodes/src/ReductionFunction.cc:159-195", "MEQ/src/Vells.h:461-491"]}
{"id": "C124", "title": "A reduction node uses the axes it was last given", "statement": "After any sequence of state changes and requests a reduction node reduces along the axes last given, by number as given or by id as mapped at the time of the request; an unknown id is an error. Axes by id are refused when there are several children, by number they are not.", "quantifier": "all histories of state changes and requests", "why_tests_cant": "histories of state updates", "anchors": ["MeqNodes/src/ReductionFunction.cc:39-74", "MeqNodes/src/ReductionFunction.cc:246-258"]}
{"id": "C125", "title": "An identifier is read from a string field by field", "statement": "HIID(str,allow_literals,seps) cuts the string at every separator ('/' and ':' included) and reads each field by itself: an empty field is the empty atom, a field of digits its number (below 2^31), a known name its id, '$x' or (where allowed, or after some '$x') an unknown name the literal in lower case; '/' and ':' leave their own atoms. The case of letters never matters, and two non-empty strings joined by '.' read as the two identifiers put together.", "quantifier": "all registries, strings of bytes (literal fields under 65536 bytes), separator sets, both settings of allow_literals", "why_tests_cant": "the decomposition into fields, the interplay of numbers, names and literals and the growing identifier cover unboundedly many strings; tests use a handful of names", "anchors": ["DMI/src/HIID.cc:309-377", "DMI/src/AtomicID.cc:81-98", "DMI/src/HIID.h:333-351"]}
{"id": "C126", "title": "A printed identifier reads back as the same identifier", "statement": "For an identifier made of indices, ids whose names lead back to them and lower case literals, with single '/' or ':' between them, toString gives the names in order and reading that text gives the identifier back. (Identifiers with empty atoms, very large indices or literals of 65536 bytes and more do not come back.)", "quantifier": "all registries and identifiers of that form, all plain separators", "why_tests_cant": "needs every index, name and literal; the failures need empty fields, indices above 2147418111 or 64K names, which no test tries", "anchors": ["DMI/src/HIID.cc:158-216", "DMI/src/AtomicID.cc:54-70", "DMI/src/HIID.cc:291-306", "DMI/src/HIID.cc:309-377"]}
{"id": "C127", "title": "Python record keys survive the trip through C++ records", "statement": "A record key made of non-empty fields (plain numbers, known names, other names without '$' in front) sent from Python becomes a field id, and that id converted back for Python is the key in lower case with '.' written as '_'.", "quantifier": "all registries whose names lead back to their ids, all such keys in any mixture of case and separators", "why_tests_cant": "the mapping goes through two string conversions with different rules for literals, separators and case; colliding or growing keys only show for particular keys", "anchors": ["OCTOPython/src/DataConv.cc:228-232", "OCTOPython/src/DataConv.cc:757", "DMI/src/HIID.cc:158-216", "DMI/src/HIID.cc:309-377"]}
{"id": "C128", "title": "Literal names inside identifiers are told apart and left whole", "statement": "Two different names kept as literals give different identifiers that do not match each other, and a literal is never split at a slash or treated as a wildcard.", "quantifier": "all ASCII names under 65536 bytes", "why_tests_cant": "the padding bytes and the bytes of the name form integers that could coincide with the special atoms; only a proof over all names excludes it", "anchors": ["DMI/src/HIID.cc:291-306", "DMI/src/HIID.cc:56-75", "DMI/src/HIID.cc:125-155"]}
{"id": "C129", "title": "The registry of names after any registrations", "statement": "After any sequence of registrations, with or without leave to overwrite, an id goes by the latest name it was given (a refused renaming changes nothing), and a name leads to the first id that took it, whatever the case of its letters; where no two ids took one name, every id is found again by its name.", "quantifier": "all histories of registrations", "why_tests_cant": "registration order is the order of static initialisers over all libraries loaded, which no test controls", "anchors": ["DMI/src/Registry.h:278-374", "DMI/src/AtomicID.cc:104-133"]}
{"id": "C130", "title": "A spigot hands the tree exactly the visibilities of the tile", "statement": "When a tile is delivered to a Spigot reading a cube column, the result it queues has, for every entry of the correlation index, a value whose number at a row and a frequency is the number the column holds at the chosen correlation, that frequency and that row of the valid range (single precision converted to double); a negative entry gives an empty VellSet, an index beyond the planes of the tile or an unreadable column type is the only way for it to fail besides a delivery for the request in progress. For the UVW column the six values are the coordinates and their derivatives.", "quantifier": "all tiles, columns, correlation indices, row ranges, request ids and spigot states", "why_tests_cant": "Tests use one telescope layout; the mapping of planes, rows and frequencies has to be right for every index list, every range and every column type.", "anchors": ["MeqServer/src/Spigot.cc:162-430"]}
{"id": "C131", "title": "A spigot flags what it was asked to regard as bad, and nothing else", "statement": "With a flag mask, the flag a Spigot attaches to a visibility is non-zero exactly when a chosen bit of the flag in the tile or of the flag of its row is set or the row is missing, and with a flag bit it is that bit. With a row mask but no flag mask it should flag exactly the bad rows.", "quantifier": "all tiles, flags, masks, bits, ranges", "why_tests_cant": "Whether any combination of masks loses a flag cannot be settled by trying some; the case of row flags alone is in fact wrong.", "anchors": ["MeqServer/src/Spigot.cc:373-408", "MeqServer/src/Spigot.cc:146-158"]}
{"id": "C132", "title": "A spigot answers a request with the result that was delivered for it", "statement": "A Spigot asked for a request id returns the first of the queued results matching it, in the order of delivery, the queue is always an end piece of what was delivered, asking again gives the same answer, a result delivered last is found if nothing earlier matches, and without a match the answer is 'missing data'.", "quantifier": "all sequences of deliveries and requests", "why_tests_cant": "The queue is state that lives across the whole stream; the order of deliveries and requests is unbounded.", "anchors": ["MeqServer/src/Spigot.cc:454-474"]}
{"id": "C133", "title": "A sink writes the child's result into the column, and nothing else into the tile", "statement": "A Sink with a tile for the request and a cube column as output puts, at every row of the range and every frequency, the value of the last VellSet that goes to that correlation (zero where it stands for zero); every other place, column and the row flags are unchanged. It succeeds when the VellSets are single numbers or arrays of the right shape and type; a tile is written once. A single number written to a two-dimensional column should end up in it.", "quantifier": "all tiles, results, correlation maps, ranges", "why_tests_cant": "Overwriting visibilities in the wrong place silently corrupts data; all maps and shapes have to be covered.", "anchors": ["MeqServer/src/Sink.cc:50-57", "MeqServer/src/Sink.cc:91-288"]}
{"id": "C134", "title": "A sink writes the child's flags into the tile", "statement": "With a flag mask the flags of the places written are the child's flags under the mask (turned into the flag bit if there is one), cleared if the child has none; without a mask and everywhere else the flags of the tile stay.", "quantifier": "all tiles, results, masks, bits, ranges", "why_tests_cant": "Stale or missing flags show only for particular combinations of zero results, ranges and shapes.", "anchors": ["MeqServer/src/Sink.cc:239-276"]}
{"id": "C135", "title": "A spigot connected to a sink leaves the data as it was", "statement": "A tree that consists of a Spigot and a Sink for the same column, with the correlations in the order of the tile, succeeds and leaves every number of the column as it was; if all rows are processed, exactly the visibilities regarded as bad are flagged afterwards.", "quantifier": "all tiles with more than one visibility per correlation, all masks and bits, all ranges", "why_tests_cant": "This is a statement about two nodes and a conversion of numbers; a test can only try some data.", "anchors": ["MeqServer/src/Spigot.cc:162-430", "MeqServer/src/Sink.cc:91-288"]}
{"id": "C136", "title": "Baselines are numbered without collisions", "statement": "Different ordered pairs of antennas have different numbers; the number is odd exactly when the first antenna is the smaller, both orders have the same half, and the tables for n antennas have room for exactly the pairs of those antennas, so that no tile is handed to the handlers of another baseline or looked up out of bounds.", "quantifier": "all pairs of antennas and all numbers of antennas", "why_tests_cant": "Injectivity of a numbering is a statement about all pairs.", "anchors": ["VisCube/src/VisVocabulary.h:172-181", "MeqServer/src/VisDataMux.cc:272-276", "MeqServer/src/VisDataMux.cc:350-355"]}
{"id": "C137", "title": "A dataset goes through the tree snippet by snippet", "statement": "While a dataset is processed, every handler of the baselines it has gets the header; the tiles fall into snippets of equal sequence number; the tiles of a snippet go to all handlers of their baselines, and to no others, with the request of the snippet and its range of rows; then exactly the sinks of the baselines concerned are asked, each once, with the pre- and post-processing children before and after; requests have successive ids. With a limit on the number of tiles exactly that many snippets are processed; otherwise the handlers get the footer. A snippet that cannot be started, and a second dataset with more stations, should not do harm.", "quantifier": "all streams, baselines, tables of handlers, answers of handlers and children, orders of answers, limits", "why_tests_cant": "The length of a stream, the arrangement of tiles and the order in which answers come in are unbounded.", "anchors": ["MeqServer/src/VisDataMux.cc:253-580"]}
{"id": "C138", "title": "The output of a data stream", "statement": "What is posted to the output channel for a dataset is the tiles returned by the sinks, each once and in the order of their answers, the header before the first of them and the footer at the end; a footer should come with a header.", "quantifier": "all streams and all answers", "why_tests_cant": "Depends on which sinks return tiles in which order over a whole dataset.", "anchors": ["MeqServer/src/VisDataMux.cc:391-421", "MeqServer/src/VisDataMux.cc:512-552"]}
{"id": "C139", "title": "A data stream succeeds exactly if nothing went wrong", "statement": "Running a stream of complete datasets returns success exactly if no handler threw an exception and no child or sink failed, whatever else they answered.", "quantifier": "all streams of datasets, all answers", "why_tests_cant": "An error may come from any handler at any time of an unbounded stream; it must not get lost.", "anchors": ["MeqServer/src/VisDataMux.cc:341-421", "MeqServer/src/VisDataMux.cc:623-827"]}
{"id": "C140", "title": "An incomplete or disordered data stream is reported", "statement": "The node returns success only if the stream was one or more datasets, each a complete header, tiles and a footer, with nothing out of sequence.", "quantifier": "all sequences of events, all answers", "why_tests_cant": "All orders of events have to be covered.", "anchors": ["MeqServer/src/VisDataMux.cc:666-773", "MeqServer/src/VisDataMux.cc:793-801"]}
{"id": "C141", "title": "The queue channel sends events in order, each once, and bounds what is pending", "statement": "Events accepted by postEvent of a queue channel are posted on the remote channel in the order in which they were accepted and none twice; as long as nothing is closed at most the queue's size plus one of them have not been posted yet.", "quantifier": "all interleavings of client and worker, all answers of the remote channel, all queue sizes", "why_tests_cant": "Which thread runs when is not under a test's control; every interleaving has to be covered.", "anchors": ["AppAgent/AppAgent/src/MTQueueChannel.cc:93-165", "AppAgent/AppAgent/src/MTQueueChannel.cc:215-240"]}
{"id": "C142", "title": "The queue channel returns events in order, each once, and says truthfully what is pending", "statement": "getEvent returns the events of the remote channel in their order, none twice, and, as long as nothing is closed or the client only asks for events, none is lost; SUCCESS means that the first pending event matches the mask, OUTOFSEQ that it does not, WAIT that none is pending.", "quantifier": "all interleavings, all answers of the remote channel, all masks", "why_tests_cant": "Every interleaving has to be covered, including the remote channel closing at any time.", "anchors": ["AppAgent/AppAgent/src/MTQueueChannel.cc:166-209", "AppAgent/AppAgent/src/MTQueueChannel.cc:253-312"]}
{"id": "C143", "title": "Errors of the remote channel reach the client, in order, each once", "statement": "The errors thrown to the client of a queue channel are those of the remote channel in their order, none twice; when any call but flush comes back, all have been thrown save possibly that of a postEvent failing at this moment, and when the channel has been closed, all have.", "quantifier": "all interleavings, all failures of the remote channel", "why_tests_cant": "An error can arise at any time of any interleaving.", "anchors": ["AppAgent/AppAgent/src/MTQueueChannel.cc:99-124", "AppAgent/AppAgent/src/MTQueueChannel.cc:144-155", "AppAgent/AppAgent/src/MTQueueChannel.cc:242-251", "AppAgent/AppAgent/src/MTQueueChannel.cc:335-338"]}
{"id": "C144", "title": "flush and close leave no accepted event unsent", "statement": "When flush or close of a queue channel returns, and the remote channel has not closed by itself, every event accepted before has been posted on the remote channel.", "quantifier": "all interleavings, all answers of the remote channel", "why_tests_cant": "Whether the worker is between two queues when flush looks depends on the scheduler.", "anchors": ["AppAgent/AppAgent/src/MTQueueChannel.cc:314-339", "AppAgent/AppAgent/src/MTQueueChannel.cc:359-369", "AppAgent/AppAgent/src/MTQueueChannel.h:73-75"]}
{"id": "C145", "title": "A closed queue channel stays closed", "statement": "Once a call has closed the channel or found it closed, the remote channel is never called again, postEvent, getEvent and hasEvent report CLOSED, flush, close and abort return, and none of them can get stuck.", "quantifier": "all interleavings, all later calls", "why_tests_cant": "All later histories have to be covered.", "anchors": ["AppAgent/AppAgent/src/MTQueueChannel.cc:215-345"]}
{"id": "C146", "title": "The queue channel does not get stuck", "statement": "While nothing is closed, postEvent, hasEvent, flush and getEvent without WAIT come back after a bounded number of steps of the two threads, getEvent(WAIT) too if an event or an error is pending, and accepted events get sent; if both threads wait for ever, it is in a getEvent for which there is nothing, or the remote channel has closed. In particular calls come back after the remote channel closes.", "quantifier": "all interleavings, all answers of the remote channel", "why_tests_cant": "Deadlocks and livelocks depend on the interleaving.", "anchors": ["AppAgent/AppAgent/src/MTQueueChannel.cc:93-369"]}
{"id": "C147", "title": "Tensor nodes compute the tensor of functions, with its perturbed values", "statement": "A node built on TensorFunction (LMN, UVW, AzEl, VisPhaseShift and the like) returns a Result with the dimensions that its class gives for those of its children (none if there is one element). If every VellSet of every child stands for a function of the solvable parameters (right value, spids, perturbations, and perturbed values in each perturbation set), then VellSet j of the result stands for element j of what evaluateTensors makes of those functions: its main value, its spids, its perturbations and the perturbed values of every set. Such a result can be used by any Function node in turn.", "quantifier": "all numbers of children and VellSets, all sets of spids in any mixture, any number of perturbation sets, any evaluateTensors and getResultDims", "why_tests_cant": "the loop merges spids of all planes of all children and swaps perturbed values in and out of a shared vector of pointers; tests try a few spid patterns", "anchors": ["MEQ/src/TensorFunction.cc:98-248", "MEQ/src/Function.cc:308-366"]}
{"id": "C148", "title": "Tensor nodes succeed when nothing is wrong, and throw when a value is missing", "statement": "If all child VellSets have values that stand for functions, flag masks are unset or one per child, the flags have compatible shapes and evaluateTensors accepts what it is given, the node does not throw and does not read outside its vectors. If any VellSet of any child is a fail or has no value, the node throws an exception.", "quantifier": "all children and VellSets", "why_tests_cant": "tests cannot show the absence of out-of-bounds reads for all combinations of spids", "anchors": ["MEQ/src/TensorFunction.cc:98-248", "MEQ/src/VellSet.h:184-189"]}
{"id": "C149", "title": "Flags of tensor nodes", "statement": "All VellSets of the result have the same flags. A bit is set at a cell exactly if some VellSet of a child, whose value is not a null or depends on a parameter, has it set there and the flag mask of the child has that bit; there are no flags at all if no such child has a mask other than 0. There must be one flag mask per child, or none. Refuted: without flag masks the flags of the children are passed on (they are dropped, while Function nodes then pass on all).", "quantifier": "all children, flags of all shapes, masks", "why_tests_cant": "flags of different shapes are merged in place into shared arrays; bitwise over all cells", "anchors": ["MEQ/src/TensorFunction.cc:60-96", "MEQ/src/Function.cc:96-115"]}
{"id": "C150", "title": "Perturbations and cells of tensor nodes", "statement": "If the node succeeds, then for each perturbation set and spid all children that give a perturbation give the same one, and every VellSet of the result has it: children that disagree make the node throw. The cells of the result are those of the first child that has cells, and those of the request if no child has. Refuted: children with unequal numbers of perturbation sets are handled without reading outside an array.", "quantifier": "all children with spids in increasing order", "why_tests_cant": "depends on the order in which planes of different children meet in the merged loop", "anchors": ["MEQ/src/TensorFunction.cc:185-245", "MEQ/src/TensorFunction.cc:40-52"]}
{"id": "C151", "title": "Tensor nodes that see all perturbed values at once", "statement": "A node built on TensorFunctionPert gives the same tensor of functions, for one perturbation set: main value, spids, perturbations and perturbed values of each element. It never reads or writes outside its table of pointers, whatever size the table had before, and succeeds if nothing is wrong. Children with two perturbation sets make it throw. Refuted: children with more than two sets are refused or their sets kept (all but the first are dropped silently).", "quantifier": "all numbers of children, planes and spids; any earlier size of the table", "why_tests_cant": "the index arithmetic of the table is only exercised by a few shapes in tests", "anchors": ["MEQ/src/TensorFunctionPert.cc:45-206", "MEQ/src/TensorFunctionPert.h:55-80"]}
{"id": "C152", "title": "A node carries out exactly the rider commands addressed to it", "statement": "When a node processes the rider of a request, it calls processCommand for exactly the commands in the group records of its own groups: those of command_all, those of the first entry of command_by_list that has the node's index or its name (or that has neither names nor indices), and those of command_by_nodeindex under its index; the fields name and nodeindex are never taken for commands. The groups come in the node's order, and within a group the three kinds in that order; the code is the OR of the codes of the commands. If a command throws, or something in the rider is of the wrong type, the commands carried out are a leading part of that list, and nothing else was called.", "quantifier": "all riders (any nesting of records, any sharing between them), nodes, groups, lists of names and indices, orders of iterating over a record, and behaviours of processCommand, including exceptions and dependence on earlier commands", "why_tests_cant": "the combinations of groups, selectors and sharing are unbounded, and tests only see a few riders written by hand", "anchors": ["MEQ/src/Node_commands.cc:116-204", "MEQ/src/Node.cc:334-340"]}
{"id": "C153", "title": "The functions in Rider.h give access to the commands they are named after", "statement": "getCmdRec_All and getCmdRec_ByNodeIndex return the record in which nodes of that group look for such commands; an existing record is returned unchanged unless a NEW_ flag asks for a new one; nothing outside the rider and the group record is changed, and other groups and other kinds of commands are kept unless the flags say otherwise. The rider filled in by a Solver makes each parm with an index in the solution carry out one UpdateParm command with its own updates for every time it lists the parm group, makes no other node do anything, and changes no record of any other request. It is false that getCmdRec_ByList works (its list is put where commands by node index belong, and every node of the group throws), that a rider copied from another request is copied when written to (the other request's commands are lost), that Rider::clear can clear the rider of a request (it throws), and that a shared request is copied when its rider is asked for (it throws).", "quantifier": "all heaps of records, riders, groups, flags, solutions and nodes", "why_tests_cant": "the damage is done to another request that shares the record, so a test of one request does not show it", "anchors": ["MEQ/src/Rider.cc:31-114", "MEQ/src/Request.cc:124-163", "MeqNodes/src/Solver.cc:897-911", "MeqNodes/src/Solver.cc:1450-1491", "DMI/src/Container.cc:133-163", "DMI/src/Record.cc:332-412"]}
{"id": "C154", "title": "The commands of a request are carried out before anything else, and once", "statement": "Node::execute carries out the commands of a rider iff the request is new to the node (its id is empty or is not the id of the node's current request), it is not answered from the cache and the abort flag is not set; they come before the children are polled. However often a request with a non-empty id is executed in a row, its commands are carried out at most once, whatever happens in between (WAIT, abort, exceptions, cache hits). It is false that the commands of every new request are carried out: if the cached result fits the new request, they are not.", "quantifier": "all requests, states of the cache, abort flags, commands, children, and sequences of calls of any length", "why_tests_cant": "the number and the order of calls that a node may see is unbounded, and exceptions and aborts may come at any point", "anchors": ["MEQ/src/Node.cc:953-1019", "MEQ/src/Node.cc:465-469"]}
{"id": "C155", "title": "Node::execute calls what it must, returns what it caches and turns exceptions into fails", "statement": "The children are polled iff the request is processed, its commands did not throw and the node is active; getResult() is called iff moreover the children's codes have none of WAIT, FAIL and MISSING, the request has cells, those of the children agree and the request is to be evaluated, and discoverSpids() iff the request is for spids; each at most once. Any exception in these steps is reported once and gives a result with a fail, cached with the code FAIL; the process ends only if even that cannot be cached. Whatever is returned comes from the cache, or was cached just before with UPDATED added to what caching returned, or is WAIT or ABORT and was not cached. The codes and results of each case are as documented: an inactive node gives an empty result, FAIL the fails of the children, MISSING an empty VellSet, and otherwise the codes of children, dependencies and getResult() are combined and missing cells filled in from children or request. It is false that a request without cells gives an empty result (a reference left in place by the caller is returned), and that fails returned by getResult() are reported.", "quantifier": "all requests, ids, codes and results of the children, of getResult(), discoverSpids() and the cache, all exceptions and abort flags", "why_tests_cant": "there are dozens of combinations of codes, flags and exceptions at every step, and most can hardly be provoked in a test", "anchors": ["MEQ/src/Node.cc:917-1197", "MEQ/src/Node.h:803-831"]}
{"id": "C156", "title": "A ReqSeq asks its children one after the other and returns the result of the selected one", "statement": "ReqSeq calls its children in order of their numbers, each at most once; child number i sees the request id with the parts chosen by sequence_symdeps raised by i. The sequence goes on iff the child answers, the forest is not aborted, the child's code has no WAIT, and FAIL or MISSING only under the policy Ignore; otherwise later children and the stepchildren are not asked, and a FAIL or MISSING is returned with the result of that child and the codes of the ones before. If all children answer, the stepchildren are polled with the id of the last child; a request with cells that is evaluated or asks for spids returns the result of the child chosen by result_index (cells filled in from the request if it has none) and all bits of the children's codes, where FAIL and MISSING count for the selected child only. It is false that a WAIT of a child makes the node wait: before the selected child it gives a fail, or, if an earlier request of another type left a result behind, that old result; and false that the codes of children are returned for requests without cells: a fail of the selected child and all dependencies are lost.", "quantifier": "all numbers of children, ids, masks, policies, results and codes of the children, requests, and states left by earlier requests", "why_tests_cant": "sequences of any length with any combination of codes; the stale result appears only after requests of different types and a WAIT", "anchors": ["MeqNodes/src/ReqSeq.cc:71-175", "MEQ/src/Node.cc:1020-1125"]}
{"id": "C157", "title": "A ReqMux asks all children and answers for the selected one", "statement": "With its default policies (Ignore) a ReqMux returns for a request with cells the result of the child chosen by result_index, with its code and the node's dependencies, whatever the other children return; a WAIT or MISSING of the selected child is returned as such. If fails are to be collected and any enabled child fails, the fails of all failed children are returned in polling order, whichever child is selected; if missing data are not ignored, none fails and any enabled child has missing data, MISSING is returned. A disabled selected child gives an empty result without an error. It is false that a fail of the selected child is passed on: under the default policies the code FAIL is returned without any result.", "quantifier": "all numbers of children, polling orders, enabled children, results and codes that do not abort the poll", "why_tests_cant": "any combination of codes of any number of children", "anchors": ["MeqNodes/src/ReqMux.cc:36-87", "MEQ/src/NodeNursery.cc:545-617", "MEQ/src/Node.cc:1036-1048"]}
{"id": "C158", "title": "The cells of a result are put together from those of the children, or the children are refused", "statement": "If the children's results keep their cells in different objects, shapes fit cells and domains are those of the grids, Node::checkChildCells throws iff along some axis a child varies over a different number of cells than the first child that varies along it, or over a range whose ends differ by more than 1e-10 of their size; otherwise each axis of the cells is that of the first child that varies along it, or, if none does, of the first child that has it and comes first or has (or follows one with) a shape of that rank; its domain is that of the grid. Children that share one Cells object give that object. It is false that children on different grids are always refused: a child sharing the object of the cells found so far is not counted, so that a third child with a different grid takes over without an error; and false that all axes of the children are in the result: those of children without a shape are lost.", "quantifier": "any number of children with or without results and cells, any shapes, grids and axes, exact or floating-point arithmetic", "why_tests_cant": "unbounded combinations of children, axes and grids; the failure needs three children of which two share an object", "anchors": ["MEQ/src/Node.cc:763-865", "MEQ/src/Axis.h:194-207", "MEQ/src/Cells.cc:255-265", "MEQ/src/Cells.cc:373-391"]}
{"id": "C159", "title": "Axis names lead to the axes that carry them", "statement": "Axis::axis and Axis::axisId map names of axes to numbers and back. After any calls to addAxis, setAxisMap and resetDefaultMap, TIME and FREQ are the axes that the names Time and Freq lead to, the published ids are the names, and every axis' id leads to some axis. setAxisMap gives each name in the list to the axis at its position and leaves other axes and names alone. addAxis gives an unknown name to the first axis without one, changes nothing for a known name, and refuses when no axis is left. As long as the map is only added to, names and axes correspond one to one and no name or axis ever changes. A process with the default map that receives a domain's axis ids has the sender's names.", "quantifier": "all sequences of calls, all lists of names, all names", "why_tests_cant": "The map is global state changed by the construction of any node and by any received domain; a test sees one order of these.", "anchors": ["MEQ/src/Axis.cc:55-238", "MEQ/src/Axis.h:65-107", "MEQ/src/Domain.cc:72-84", "MEQ/src/Domain.cc:130-138"]}
{"id": "C160", "title": "Changing the axis map is all or nothing", "statement": "After setAxisMap, axis(axisId(i)) is i, a name no axis carries leads nowhere, and a list that is refused changes nothing. This does not hold: a replaced name still leads to its old axis, so that TIME can be an axis called U and addAxis(Time) does nothing; a list with a number at a wrong place is refused after the names before it have been put in force, while the map still counts as the default one and is not sent with domains; an array of more than eight names is refused after the first eight. What exactly is left behind by a refused list is proved.", "quantifier": "all sequences of calls, all lists", "why_tests_cant": "Refused and repeated maps are rare in tests; the effects show only in nodes that look up a name later.", "anchors": ["MEQ/src/Axis.cc:82-104", "MEQ/src/Axis.cc:107-136", "MEQ/src/Axis.cc:198-217"]}
{"id": "C161", "title": "A 2x2 matrix times its MatrixInvert22 is the unit matrix, in value and in every perturbed value", "statement": "MeqMatrixInvert22 of a Result with dims [2,2] gives a Result with dims [2,2] which, at every cell and for the current as well as every perturbed value of the solvable parameters, holds the inverse of the child's matrix wherever that matrix has one; MeqMatrixMultiply of the child and the inverse, in either order, gives the unit matrix. Missing elements count as zeros. A scalar child gives its reciprocal. Every element of an inverted matrix carries the union of the masked flags of the four elements of the child.", "quantifier": "all 2x2 and scalar children, all grids, all sets of parameters and perturbations, complex values, missing elements, any mask", "why_tests_cant": "The statement covers every matrix, every cell and every perturbed value; tests only sample some matrices, and hardly ever look at perturbed values or at missing elements.", "anchors": ["MeqNodes/src/MatrixInvert22.cc:51-240", "MeqNodes/src/MatrixMultiply.cc"]}
{"id": "C162", "title": "What MatrixInvert22 refuses, and what becomes of fails and masks", "statement": "MatrixInvert22 with a failed element gives a failed scalar Result with a record of a failed element, and passes a failed scalar on; it refuses children that are neither scalars nor 2x2 matrices, and any number of children but one. (Refuted: every fail record of the child is kept; the flag mask applies to scalars as well.)", "quantifier": "all children, all fails, all masks", "why_tests_cant": "Which fail survives, and whether a mask applies, depends on the mixture of failed and good elements and on the rank of the child; a test sees one mixture at a time.", "anchors": ["MeqNodes/src/MatrixInvert22.cc:51-240"]}
{"id": "C163", "title": "Spid discovery reports exactly the solvable parameters below a node", "statement": "A DISCOVER_SPIDS request to a node returns a spid map with one entry for each unknown of each solvable MeqParm below it, and no others; below means through any child of an ordinary node, through the selected child of a ReqSeq or ReqMux, and not through a Solver. The order of the children and the number of ways to a Parm make no difference. Every spid that the Result of the node can have later is among those reported. Discovery succeeds if every solvable Parm below can be made solvable.", "quantifier": "all trees of nodes, all Parms with polynomial funklets, all selections of ReqSeq and ReqMux, missing children", "why_tests_cant": "The statement is about all trees, with Parms shared between branches and reached in any order; tests use a few small trees.", "anchors": ["MEQ/src/Node.cc:867-900", "MeqNodes/src/Parm.cc:510-562", "MeqNodes/src/ReqSeq.cc:157-165", "MeqNodes/src/ReqMux.cc:72-79", "MeqNodes/src/Solver.h:122-125", "DMI/src/Record.cc:132-156"]}
{"id": "C164", "title": "Every unknown reaches the Solver as what it is", "statement": "Each entry of a discovered spid map names the node, solve group, tile sizes and coefficient of the Parm that the spid belongs to, and the table of a Solver has one line for each unknown of each solvable Parm below its children, with the node and the number of tiles of that Parm. (Proved for Parms of at most 256 unknowns; false beyond: the spids of a larger Parm run into those of the next node, whose unknowns are lost.)", "quantifier": "all trees of nodes, all node indices, groups and tilings", "why_tests_cant": "The claim joins Parm, Node and Solver over arbitrary trees, and it fails only with more than 256 coefficients in one Parm, which tests do not have.", "anchors": ["MEQ/src/Node.cc:867-900", "MeqNodes/src/Parm.cc:185-213", "MeqNodes/src/Parm.cc:510-562", "MeqNodes/src/Solver.cc:279-541", "MeqNodes/src/Solver.cc:919-948"]}
{"id": "C165", "title": "A ModRes node asks its child for cells that tile what it was asked for", "statement": "Given upsample factors, each cell of the first two axes of the request becomes that many cells of equal size in order; given downsample factors, each run of that many cells becomes one cell from the start of the first to the end of the last, with the rest in a last cell; given numbers of cells, the domain is cut into that many equal cells. Axes without gaps or overlaps stay so and keep both ends, and upsampling followed by downsampling by the same factors gives back exactly the cells there were.", "quantifier": "for all axes (regular or not), all factors, all request ids and symdep masks, exact arithmetic", "why_tests_cant": "Needs every combination of cell count, factor and remainder; tests use a regular grid with a factor that divides the number of cells, where the rest at the end does not occur.", "anchors": ["MeqNodes/src/ModRes.cc:58-104", "MeqNodes/src/ModRes.cc:106-285", "MEQ/src/Cells.cc:56-66", "MEQ/src/Cells.cc:278-290"]}
{"id": "C166", "title": "What a ModRes node asks depends on the request, its factors, and nothing else", "statement": "The request the child of a ModRes node gets is fixed by the request and the factors set in the state record; different cells go under different request ids; axes other than the first two are kept. Each of these is false: a request with fewer cells than the downsample factor cuts the factor down for good, two ModRes nodes with different factors give their requests the same id, and a third axis is lost. What holds is that the factor in force is the smallest of the one set and the numbers of cells of all earlier requests, and that the id changes in exactly the positions of the resolution symdeps, by one or to the resolution id.", "quantifier": "for all sequences of earlier requests, all factors, ids and masks", "why_tests_cant": "It takes a particular sequence of requests to the same node to see the factor change; no single request shows it.", "anchors": ["MeqNodes/src/ModRes.cc:162-189", "MeqNodes/src/ModRes.cc:224-248", "MeqNodes/src/ModRes.cc:262-285"]}
{"id": "C167", "title": "A HistoryCollect node has the last items of its child's results, as many as its limit", "statement": "The history a HistoryCollect node gives to Get.History, or puts in its result when verbose, is the list of the items found in its child's results since the history was last cleared, in order; with max_list_size above zero it is the last that many of them. When the limit is changed in between it is still an end of that list, and within the limit again from the next item on.", "quantifier": "for all sequences of results (with or without the item), Get.History, Clear.History and setState records, accepted or refused, and all limits", "why_tests_cant": "Needs arbitrary interleavings of results, commands and state changes; a test fixes one.", "anchors": ["MeqNodes/src/HistoryCollect.cc:45-136", "MEQ/src/Node.cc:368-407"]}
{"id": "C168", "title": "A state record that is refused leaves a HistoryCollect node as it was", "statement": "When setState refuses a record (a field of the wrong type, say) the node should be as before. Limit and verbosity are; the history is not: the recovery runs setStateImpl on the state record as if the node were new, and that empties the history. Only records refused for a protected field leave the history alone.", "quantifier": "for all histories of the node and all records that are refused", "why_tests_cant": "The loss needs a refused record after items have been collected, and is in code shared by all nodes that looks like it restores the state.", "anchors": ["MEQ/src/Node.cc:368-407", "MeqNodes/src/HistoryCollect.cc:58-69", "MEQ/src/Node.h:680-690"]}
{"id": "C169", "title": "WSum and WMean give the weighted sum and the weighted mean of their children", "statement": "A WSum with weights gives the sum of its children's values, each times its weight (one weight for all, or one each; weights too many are ignored), and a WMean that sum divided by the sum of the weights, for this request and for all that follow although the weights are changed by each evaluation. A WMean with one weight gives the plain mean whatever the weight; with weights that add up to zero it gives the weighted sum.", "quantifier": "for all numbers of children, all weights set by any sequence of state records, all values and sequences of requests, exact arithmetic", "why_tests_cant": "The weights are normalised in place at each evaluation, so that being right once does not mean being right for the next request.", "anchors": ["MeqNodes/src/WSum.cc:30-88", "MeqNodes/src/WMean.cc:37-76"]}
{"id": "C170", "title": "A child with weight zero is left out of a weighted sum", "statement": "Weights that are zero, or not given for a child when others are, should leave the child out of the sum: the code disables such children and skips them when adding up. It does not work: a disabled child has no result, the result is looked at all the same, and every request fails.", "quantifier": "for all weights with a zero among them, all values and requests, WSum and WMean", "why_tests_cant": "The weights and the disabled children are handled in one class, the results of children in another and the polling in a third; each is right by itself.", "anchors": ["MeqNodes/src/WSum.cc:39-63", "MEQ/src/NodeNursery.cc:553-577", "MEQ/src/Function.cc:120-139", "DMI/src/CountedRefBase.h:129-134"]}
