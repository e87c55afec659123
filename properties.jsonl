{"id": "C01", "title": "Power loss always returns the last committed state", "statement": "If power is lost at any instant after a volume was mounted, the next successful mount presents exactly the state of the most recent completed transaction point: every file, directory and free-space bit of the committed state is intact and nothing of the working state is visible. If power is lost while a transaction point is being written, the mount presents either the old committed state or the new one, never a mixture.", "quantifier": "all histories of file-system calls between two transaction points, all subsets/orders/tearings of the block writes issued since, and all crash instants", "why_tests_cant": "the number of write-back schedules and crash points is exponential in the number of dirty blocks; a test samples a few", "anchors": ["core/driver/volume.c:RedVolTransact", "core/driver/volume.c:RedVolMountMetaroot", "core/driver/inodedata.c:BranchOneBlock", "core/driver/inode.c:RedInodeBranch", "core/driver/imapextern.c:ImapNodeBranch"]}
{"id": "C02", "title": "Committed blocks are never overwritten before the next transaction point", "statement": "Between two transaction points no block that belongs to the committed state (data, indirect node, inode, imap node or the current metaroot) is ever modified or handed out by the allocator, even if it has been freed in the working state.", "quantifier": "all histories of allocations and frees since the last transaction point and all volume geometries, for both on-disk imap layouts", "why_tests_cant": "depends on the whole allocation history; a test only sees one allocation order", "anchors": ["core/driver/imap.c:RedImapAllocBlock", "core/driver/imap.c:RedImapBlockState", "core/driver/inodedata.c:BranchOneBlock"]}
{"id": "C03", "title": "Rollback restores exactly the last transaction point", "statement": "red_rollback discards every change made since the last transaction point: afterwards the visible volume state (imap, counters, inode contents) equals the state committed by that transaction point.", "quantifier": "all histories of working-state changes since the transaction point", "why_tests_cant": "requires quantifying over all possible working states", "anchors": ["core/driver/volume.c:RedVolRollback", "core/driver/core.c:RedCoreVolRollback"]}
{"id": "C04", "title": "Mount selects the newest valid metaroot and survives one torn metaroot", "statement": "Mount never uses a metaroot whose signature or checksum is invalid; if both are valid it uses the one with the larger sequence number; if exactly one is valid it uses that one (when the configuration promises atomic sector writes, provided the first sector of the other one is valid: otherwise mount fails with RED_EIO); if none is valid mount fails with RED_EIO and the volume does not become mounted. After mount the in-memory sequence number is larger than every sequence number in the chosen metaroot and master block. After power loss during the write of a metaroot over a valid older one, whatever mixture of old and new sectors is left, mount succeeds with the last committed state or the state being committed, unless the mixture has the checksum of the new metaroot by accident; a burst of up to 32 changed bits in a metaroot is always detected.", "quantifier": "all contents of the two metaroot blocks, all sequence numbers, all mixtures of sectors, both byte orders, all block and sector sizes", "why_tests_cant": "the content space of the two blocks cannot be enumerated", "anchors": ["core/driver/volume.c:RedVolMountMetaroot", "core/driver/volume.c:MetarootIsValid"]}
{"id": "C05", "title": "Block allocation returns only blocks that are free in both states, and never the same block twice", "statement": "A successful block allocation returns a block in the allocable region whose bit was clear in both the committed and the working imap; it marks exactly that block as used and changes no other bit, so no block is ever owned twice.", "quantifier": "all imap contents, all next-allocation hints, all volume sizes", "why_tests_cant": "the bitmap state space is exponential in the volume size", "anchors": ["core/driver/imap.c:RedImapAllocBlock", "core/driver/imapinline.c:RedImapIBlockFindFree", "core/driver/imapextern.c:RedImapEBlockFindFree"]}
{"id": "C06", "title": "The free-block count is exact and allocation succeeds whenever it is nonzero", "statement": "At all times the free-block counter equals the number of blocks free in both the working and the committed imap, and the almost-free counter equals the number of blocks free in the working but used in the committed imap. Consequently allocation fails with RED_ENOSPC exactly when no such block exists, and red_statvfs reports the true number.", "quantifier": "all sequences of allocate, free and transaction operations starting from a formatted volume", "why_tests_cant": "a counter drift may need arbitrarily long histories to appear", "anchors": ["core/driver/imap.c:RedImapBlockSet", "core/driver/imap.c:RedImapAllocBlock", "core/driver/volume.c:RedVolTransact", "core/driver/core.c:RedCoreVolStat"]}
{"id": "C07", "title": "Bitmap primitives address independent bits", "statement": "Setting or clearing bit i of a bitmap changes the value later read for bit i and for no other bit, never touches another byte, and never reads or writes outside the bytes implied by the bit index.", "quantifier": "all bitmaps, all bit indices", "why_tests_cant": "2^(8n) bitmaps", "anchors": ["util/bitmap.c:RedBitGet", "util/bitmap.c:RedBitSet", "util/bitmap.c:RedBitClear"]}
{"id": "C08", "title": "Inline and external imaps are indistinguishable", "statement": "The external imap (bitmap spread over toggling node pairs, copied on first write of a transaction) implements the same get/set/find-free semantics, for working and committed state, as a single flat bitmap; its node writes never touch a node copy of the committed state; and committing makes precisely the working bits the committed bits.", "quantifier": "all volume sizes needing any number of imap nodes, all sequences of imap operations and transaction points", "why_tests_cant": "boundary effects depend on node count, node index and branch history", "anchors": ["core/driver/imapextern.c:RedImapEBlockGet", "core/driver/imapextern.c:RedImapEBlockSet", "core/driver/imapextern.c:ImapNodeBranch", "core/driver/imapextern.c:RedImapEBlockFindFree"]}
{"id": "C09", "title": "The buffer cache is transparent", "statement": "Whatever the number of buffers, the sequence of acquisitions, releases, dirtyings, branches, discards, flushes and direct transfers, whatever buffers get evicted when, and whatever I/O calls fail, a successful acquisition of a block shows the contents stored last into that block, exactly as storage without a cache would: byte for byte for data, and all bytes but the 16 header bytes for metadata nodes. An acquisition fails only if the device fails, every buffer is held, or the block is not a valid node of the requested type. A successful flush has put those contents on the disk. The client must keep the rules the driver keeps: dirty a buffer before writing to it, do not hold one block more than 255 times, do not discard a block it still holds, do not use again a block whose unflushed modification it discarded.", "quantifier": "all operation sequences, all buffer counts, all eviction orders", "why_tests_cant": "cache-coherence bugs depend on specific interleavings of evictions", "anchors": ["core/driver/buffer.c:RedBufferGet", "core/driver/buffer.c:RedBufferPut", "core/driver/buffer.c:RedBufferDirty", "core/driver/buffer.c:RedBufferBranch", "core/driver/buffer.c:RedBufferDiscardRange"]}
{"id": "C10", "title": "A transaction point reaches the media before it is declared", "statement": "When a transaction point completes, all dirty buffers were written and flushed before the metaroot is written, and the metaroot is flushed before success is returned: at every intermediate instant the media holds a complete old or complete new committed state.", "quantifier": "all sets of dirty buffers and all crash instants inside the transaction point, with a device that may lose or reorder any unflushed writes", "why_tests_cant": "device write-cache reordering is not observable in a unit test", "anchors": ["core/driver/volume.c:RedVolTransact", "core/driver/blockio.c:RedIoFlush", "core/driver/buffer.c:RedBufferFlushRange"]}
{"id": "C11", "title": "The three CRC implementations compute the same checksum", "statement": "The bit-at-a-time, table-driven and slice-by-8 CRC variants return the same value for every buffer, length and initial value, so a volume written by a build with one variant is readable by a build with another.", "quantifier": "all byte strings, all initial values, all lengths including those not a multiple of 8", "why_tests_cant": "infinitely many inputs; equivalence of the slice-by-8 tables is an algebraic fact", "anchors": ["util/crc.c:RedCrc32Update"]}
{"id": "C12", "title": "Checksums compose and detect localized corruption", "statement": "Computing a checksum piecewise over consecutive chunks equals computing it over the concatenation, and any change confined to a window of at most 32 bits of a buffer changes its checksum, so such corruption of a metadata node or metaroot is always detected.", "quantifier": "all byte strings, all chunkings, all error bursts up to 32 bits", "why_tests_cant": "2^(8n) buffers times all bursts", "anchors": ["util/crc.c:RedCrc32Update", "util/crc.c:RedCrcNode", "core/driver/volume.c:MetarootIsValid"]}
{"id": "C13", "title": "Byte-swap helpers are exact byte reversals", "statement": "RedRev16/32/64 reverse the byte order of their argument and are involutions, so metadata written on one endianness and swapped twice is unchanged.", "quantifier": "all 16/32/64-bit values", "why_tests_cant": "2^64 inputs", "anchors": ["util/endian.c:RedRev16", "util/endian.c:RedRev32", "util/endian.c:RedRev64"]}
{"id": "C14", "title": "The on-disk layout never overlaps", "statement": "For every configuration accepted at initialization whose sizes do not wrap in the 32-bit arithmetic (fewer than 2^32-2^19 blocks, fewer than 2^31-2^23 inodes), master block, metaroots, imap node pairs, inode pairs and allocable blocks occupy pairwise disjoint blocks that exactly fill the volume, the volume lies inside its sectors (and those inside the media), every inode or allocable block has an imap bit, and (for volumes not larger than metaroot entries x imap-node coverage) every imap node has a toggle bit. Without those bounds initialization accepts overlapping layouts (refuted by examples).", "quantifier": "all sector counts, sector sizes, block sizes and inode counts accepted by initialization", "why_tests_cant": "the configuration space is 2^128; overflow corner cases need exotic values", "anchors": ["core/driver/volume.c:RedVolInitGeometry", "core/driver/imapextern.c:RedImapNodeBlock", "core/driver/inode.c:InodeBlock"]}
{"id": "C15", "title": "Each logical file block has exactly one location in the inode tree", "statement": "The mapping from a logical block number to its direct/indirect/double-indirect coordinates is total and injective for every offset below the maximum file size, with all indices inside their arrays, and the maximum file size is exactly the number of addressable bytes.", "quantifier": "all logical block numbers and all configurations of pointer counts", "why_tests_cant": "2^32 block numbers times all configurations", "anchors": ["core/driver/inodedata.c:SeekCoord", "core/include/redcoremacs.h:INODE_SIZE_MAX"]}
{"id": "C16", "title": "Reads return what was written", "statement": "Reading a range of a file returns, for every byte position, the value most recently written there, zero for positions never written or discarded by truncation, and is cut at end-of-file; writes leave all other bytes of that file and every other file unchanged; a successful write of n bytes extends the size to at least offset+n.", "quantifier": "all interleavings of reads, writes and truncates over any number of files, offsets, lengths and alignments", "why_tests_cant": "the history and alignment space is infinite", "anchors": ["core/driver/inodedata.c:RedInodeDataRead", "core/driver/inodedata.c:RedInodeDataWrite", "core/driver/core.c:RedCoreFileRead", "core/driver/core.c:RedCoreFileWrite"]}
{"id": "C17", "title": "Truncation zero-fills and never resurrects data", "statement": "Truncating a file to n bytes leaves the first min(n,old size) bytes unchanged, sets the size to n, and bytes exposed by any later extension read as zero rather than old contents.", "quantifier": "all file contents, sizes and later operations", "why_tests_cant": "stale data shows up only for particular alignment histories", "anchors": ["core/driver/inodedata.c:RedInodeDataTruncate", "core/driver/inodedata.c:ExpandPrepare", "core/driver/inodedata.c:Shrink"]}
{"id": "C18", "title": "No block is leaked or shared", "statement": "After any sequence of operations every block marked used in the working state is reachable from exactly one place (one file position or one indirect node of one file), and every reachable block is marked used; deleting every file returns the volume to its empty free count.", "quantifier": "all histories of create, write, truncate, unlink operations, including ones that fail with no space", "why_tests_cant": "leaks accumulate over unbounded histories and failure points", "anchors": ["core/driver/inodedata.c:BranchBlock", "core/driver/inodedata.c:TruncDindir", "core/driver/inodedata.c:TruncIndir", "core/driver/inode.c:RedInodeFree"]}
{"id": "C19", "title": "A directory is a map from names to inodes", "statement": "Create, lookup, delete and rename on a directory behave as operations on a finite map from valid names to inode numbers: a name is found iff it was created and not deleted since, creating an existing name fails with RED_EEXIST and changes nothing, and at most one entry exists per name.", "quantifier": "all histories of directory operations, all names, any directory size", "why_tests_cant": "entry-slot reuse and block boundaries depend on history", "anchors": ["core/driver/dir.c:RedDirEntryCreate", "core/driver/dir.c:RedDirEntryLookup", "core/driver/dir.c:RedDirEntryDelete"]}
{"id": "C20", "title": "Directory enumeration is complete and duplicate free", "statement": "Repeated red_readdir from a rewound stream on an unmodified directory returns every existing entry exactly once, in slot order, and then reports end of directory.", "quantifier": "all directory contents including sparse slots, all stream positions", "why_tests_cant": "slot patterns are exponential in directory size", "anchors": ["core/driver/dir.c:RedDirEntryRead", "posix/posix.c:red_readdir"]}
{"id": "C21", "title": "Rename keeps the namespace a tree", "statement": "No rename can move a directory into itself or one of its descendants; after any sequence of successful creates, removes and renames every directory reaches the root by following parents, so the namespace stays a tree.", "quantifier": "all directory trees of any shape and depth and all rename arguments", "why_tests_cant": "trees of unbounded depth", "anchors": ["core/driver/dir.c:DirCyclicRenameCheck", "core/driver/dir.c:RedDirEntryRename"]}
{"id": "C22", "title": "Link counts equal the number of names", "statement": "After any sequence of create, link, unlink and rename operations, a file's link count equals the number of directory entries naming it, and a file exists iff it has at least one name; the link count never exceeds 65535.", "quantifier": "all histories of namespace operations", "why_tests_cant": "unbounded histories", "anchors": ["core/driver/core.c:CoreLink", "core/driver/core.c:CoreUnlink", "core/driver/inode.c:RedInodeLinkDec"]}
{"id": "C23", "title": "A read-only volume never changes", "statement": "While a volume is read-only (by mount flag or after a critical error) every modifying call fails with RED_EROFS (or an earlier argument error) and neither media nor visible state changes; once read-only because of a critical error it stays so until remounted.", "quantifier": "all call sequences and arguments", "why_tests_cant": "all call sequences", "anchors": ["core/driver/core.c:RedCoreCreate", "core/driver/core.c:RedCoreFileWrite", "core/driver/volume.c:RedVolCriticalError", "posix/posix.c:FildesOpen"]}
{"id": "C24", "title": "Running out of space is clean, and deleting is possible after a transaction point", "statement": "An operation that fails with RED_ENOSPC leaves names, file contents and sizes as they were (a write may be short but is never torn elsewhere), and reserved blocks guarantee that after a transaction point a delete or a shrinking truncate can proceed even on a full volume. A write, create or link fails with RED_ENOSPC only when fewer blocks are free than one branch can need, or the directory is full.", "quantifier": "all volume fill levels, all failure points within an operation", "why_tests_cant": "needs failure at every possible allocation of every operation", "anchors": ["core/driver/inodedata.c:BranchBlockCost", "core/driver/inodedata.c:FreeBlockCount", "core/driver/core.c:RedCoreUnlink", "core/driver/core.c:CoreFileTruncate"]}
{"id": "C25", "title": "Paths select the right volume and file", "statement": "A path is resolved on the volume with the longest configured prefix that matches whole path components; a name component is delimited by separators only; repeated or trailing separators do not matter; results do not depend on anything after the terminator.", "quantifier": "all strings and all sets of volume prefixes", "why_tests_cant": "infinitely many strings", "anchors": ["posix/path.c:RedPathVolumePrefixLookup", "posix/path.c:PathWalk", "posix/path.c:RedPathToName"]}
{"id": "C26", "title": "File descriptors identify handle, volume and mount, and stale ones are rejected", "statement": "Every descriptor returned by red_open is at least 3, decodes back to the handle, volume and mount generation that produced it, distinct open handles have distinct descriptors, and a descriptor obtained before an unmount is rejected with RED_EBADF after the volume is mounted again (until 2047 further mounts).", "quantifier": "all handle indices, volumes, generations; all sequences of open, close, mount and unmount", "why_tests_cant": "needs generation wrap-around and handle reuse histories", "anchors": ["posix/posix.c:FildesPack", "posix/posix.c:FildesUnpack", "posix/posix.c:FildesToHandle", "posix/posix.c:red_mount2"]}
{"id": "C27", "title": "Descriptor operations respect the access mode and keep the offset consistent", "statement": "red_open accepts exactly the documented flag combinations; read requires a readable, write/ftruncate a writeable descriptor; append-mode writes start at end-of-file; successful reads and writes advance the offset by exactly the returned count; red_lseek never overflows, never yields a negative or too large offset, and leaves the offset unchanged on error.", "quantifier": "all 32-bit flag words, all offsets and 64-bit seek distances", "why_tests_cant": "2^32 flags, 2^128 seek argument pairs", "anchors": ["posix/posix.c:red_open", "posix/posix.c:red_read", "posix/posix.c:red_write", "posix/posix.c:red_lseek"]}
{"id": "C28", "title": "An open file or working directory is never deleted under its user", "statement": "red_unlink, red_rmdir and a replacing red_rename fail with RED_EBUSY instead of deleting an inode that has an open handle (and only one name) or that is some task's working directory, so an open descriptor always refers to an existing inode of its volume.", "quantifier": "all sequences of open/close/unlink/rename/chdir over any number of tasks and handles", "why_tests_cant": "unbounded histories", "anchors": ["posix/posix.c:InodeUnlinkCheck", "posix/posix.c:UnlinkSub", "posix/posix.c:red_rename"]}
{"id": "C29", "title": "Unmount and rollback never strand handles", "statement": "red_umount and red_rollback fail with RED_EBUSY and change nothing while a handle is open on that volume; forced unmount closes exactly the handles of that volume; after a successful unmount no handle or non-root working directory refers to the volume.", "quantifier": "all handle tables and volume numbers", "why_tests_cant": "all handle-table contents", "anchors": ["posix/posix.c:red_umount2", "posix/posix.c:red_rollback"]}
{"id": "C30", "title": "Tasks are isolated: own errno, own working directory", "statement": "A task occupies at most one slot, at most the configured number of tasks can register, a failing call sets only the calling task's errno, and red_chdir changes only the calling task's working directory.", "quantifier": "all interleavings of calls from any number of tasks", "why_tests_cant": "unbounded interleavings", "anchors": ["posix/posix.c:TaskRegister", "posix/posix.c:red_errnoptr", "posix/posix.c:CwdGet"]}
{"id": "C31", "title": "Memory and string primitives meet their C-library contracts", "statement": "RedMemCpy/RedMemMove/RedMemSet/RedMemCmp and RedStrLen/RedStrCmp/RedStrNCmp/RedStrNCpy compute the results of the corresponding C library functions, RedMemMove also for overlapping regions, and none touches bytes outside its ranges.", "quantifier": "all memory contents, addresses, overlaps and lengths", "why_tests_cant": "all overlaps/alignments", "anchors": ["util/memory.c:RedMemMove", "util/memory.c:RedMemCpy", "util/string.c:RedStrNCpy", "util/string.c:RedStrNCmp"]}
{"id": "C32", "title": "Block I/O retries a bounded number of times", "statement": "A block read, write or flush is attempted at most 1+bBlockIoRetries times (for settings up to 254), stops at the first success, returns an error only if all attempts failed, and then makes the volume read-only. With bBlockIoRetries=255 the call never returns on a device that keeps failing (refuted by an example).", "quantifier": "all retry settings and all device failure sequences", "why_tests_cant": "device failure sequences are infinite", "anchors": ["core/driver/blockio.c:RedIoRead", "core/driver/blockio.c:RedIoWrite", "core/driver/blockio.c:RedIoFlush"]}
{"id": "C33", "title": "Block I/O stays inside the volume", "statement": "Each block transfer whose byte length fits in 32 bits touches exactly the sectors of the requested blocks, shifted by the volume's sector offset and inside the volume's sectors; a read delivers exactly the bytes of those blocks, a write changes no other byte of the media even when attempts fail; requests outside the volume are rejected and never reach the device; no arithmetic wraps.", "quantifier": "all block ranges, sector sizes and offsets accepted at initialization", "why_tests_cant": "64-bit arithmetic corner cases", "anchors": ["core/driver/blockio.c:RedIoRead", "core/driver/blockio.c:RedIoWrite", "bdev/bdev.c:RedBDevRead"]}
{"id": "C34", "title": "Automatic transaction points happen exactly when the mask asks for them", "statement": "A successful modifying call commits a transaction point iff the event's bit is set in the volume's transaction mask; mask values with unknown bits are rejected without change; with the volume-full bit a call that ran out of space commits once and is retried.", "quantifier": "all masks, all events, all call sequences", "why_tests_cant": "all masks times histories", "anchors": ["core/driver/core.c:RedCoreTransMaskSet", "core/driver/core.c:RedCoreCreate", "core/driver/core.c:RedCoreFileWrite"]}
{"id": "C35", "title": "The working-directory path leads back to the working directory", "statement": "When red_getcwd succeeds, the returned string fits the buffer including its terminator, and resolving it as an absolute path yields the task's working directory; if the buffer is too small it fails with RED_ERANGE without writing outside the buffer.", "quantifier": "all directory trees, depths, names and buffer sizes", "why_tests_cant": "unbounded depth and sizes", "anchors": ["posix/posix.c:red_getcwd"]}
{"id": "C36", "title": "Format produces a valid empty volume", "statement": "After a successful format (of a volume that was not, since boot, unmounted without a transaction point while committed blocks had been freed), mount succeeds and shows an empty root directory, all inodes but the root free, and all allocable blocks free; nothing of the previous contents is visible. Without the restriction the free-block count is wrong: a defect of the code, shown as a counterexample.", "quantifier": "all prior disk contents and all accepted geometries", "why_tests_cant": "all prior disk contents", "anchors": ["core/driver/format.c:RedVolFormat", "core/driver/volume.c:RedVolMount"]}
{"id": "C37", "title": "Inode slots: an inode is in exactly one committed copy and updates go to the other", "statement": "Each inode number has two slots; at any time at most one is live in the working state, a modification is always placed in the slot that is not part of the committed state, an inode is reported free iff neither slot is live in the working state, and the free-inode counter equals the number of inode numbers not live in the working state.", "quantifier": "all histories of create, modify, delete and transaction points", "why_tests_cant": "slot state depends on history", "anchors": ["core/driver/inode.c:RedInodeBranch", "core/driver/inode.c:RedInodeCreate", "core/driver/inode.c:RedInodeFree", "core/driver/inode.c:InodeGetWriteableCopy"]}
{"id": "C38", "title": "API calls from concurrent tasks are serialised", "statement": "Because every API call runs its whole body while holding the file-system mutex, any interleaving of calls from several tasks produces the results of executing the calls one at a time in the order the mutex was acquired; the mutex is released on every path, including error paths.", "quantifier": "all schedules of any number of tasks", "why_tests_cant": "the number of schedules is unbounded", "anchors": ["posix/posix.c:PosixEnter", "posix/posix.c:PosixLeave", "fse/fse.c:FseEnter"]}
{"id": "C39", "title": "A volume mounts only with the configuration it was formatted with", "statement": "red_mount reads the master block and succeeds past it exactly if the volume was formatted with the same layout version, inode count, block count, maximum name length, numbers of direct and indirect pointers, block size, API, timestamp and block-count settings (and, with the POSIX-like API, the same link setting); otherwise it fails with RED_EIO. The same holds for a volume written in the other byte order.", "quantifier": "all pairs of configurations, both byte orders, all block sizes", "why_tests_cant": "a test suite is compiled for one configuration; the pairs of configurations cannot be enumerated", "anchors": ["core/driver/volume.c:RedVolMountMaster", "core/driver/format.c:RedVolFormat", "core/driver/buffer.c:BufferEndianSwapMaster"]}
{"id": "C40", "title": "Metadata nodes survive the disk in both byte orders, and anything else is rejected", "statement": "Every member of a metadata node has after reading the node from the disk the value it had when the node was written, in both byte orders; a block is accepted as a node only if its signature, checksum and sequence number are right: a node of another type, of the other byte order, with a sequence number not yet reached, or with up to 32 consecutive changed bits is reported as RED_EIO.", "quantifier": "all node types, contents, sequence numbers, inode layouts, byte orders, block sizes, all bursts of up to 32 bits", "why_tests_cant": "the contents of a block cannot be enumerated, and the byte order is fixed when the driver is compiled", "anchors": ["core/driver/buffer.c:BufferFinalize", "core/driver/buffer.c:BufferIsValid", "core/driver/buffer.c:BufferEndianSwap", "core/include/rednodes.h"]}
{"id": "C41", "title": "A writable volume stays writable", "statement": "On media without I/O errors, a volume mounted without the read-only flag stays writable until it is unmounted: no API call, in any history, turns it read-only, and no call fails with RED_EROFS or RED_EIO. In particular a rename that runs out of space after it has already made the new name is undone completely: nothing a user can see has changed and the volume can still be written.", "quantifier": "all histories of calls, evictions and power losses before; all calls, all volume contents, all amounts of free space", "why_tests_cant": "the undo of a half-made rename needs blocks at a moment when the volume is full; whether one is available depends on which blocks of both directories are branched or allocated in the history, and a failed undo turns the volume read-only", "anchors": ["core/driver/dir.c:RedDirEntryRename", "core/driver/core.c:CoreRename", "core/driver/volume.c:RedVolCriticalError", "core/driver/core.c:RedCoreVolStat"]}
{"id": "C42", "title": "FSE: transaction points, rollback and power loss", "statement": "A volume used through the FSE API is after every history a set of numbered files with a working and a committed state: RedFseTransact, an automatic transaction or a mount makes the working state committed; a power loss at any moment, with any unflushed writes lost, and RedFseRollback bring back exactly the files at the last transaction point. A power loss during a call leaves the files committed before the call or those it commits, never a mixture.", "quantifier": "all histories of FSE calls, evictions of dirty buffers and power losses between and inside calls; all contents, masks, volume configurations", "why_tests_cant": "the power-loss points, the orders in which the device writes blocks and the histories cannot be enumerated", "anchors": ["fse/fse.c:RedFseTransact", "fse/fse.c:RedFseRollback", "fse/fse.c:RedFseMount", "fse/fse.c:RedFseTransMaskSet", "core/driver/volume.c:RedVolTransact", "core/driver/volume.c:RedVolRollback"]}
{"id": "C43", "title": "FSE: the numbered files hold what was written", "statement": "After RedFseFormat and RedFseMount exactly the files 2, ..., inode count + 1 exist, and they are empty. From then on a file's size and bytes, as RedFseSizeGet and RedFseRead report them, are those that follow from the successful writes and truncations alone: holes read as zero, a failed call changes nothing, other files do not change. On a mounted volume the only errors are RED_EINVAL, RED_EBADF (exactly for file numbers that do not exist), RED_EFBIG (exactly beyond the largest size), RED_ENOSPC and RED_EBUSY. Right after a transaction point, a file can be shrunk even if the volume is full.", "quantifier": "all histories of calls, all file numbers, offsets, lengths and data, all volume configurations, all amounts of free space", "why_tests_cant": "contents depend on the whole history of writes and truncations through three levels of indirection; the inputs and histories cannot be enumerated", "anchors": ["fse/fse.c:RedFseRead", "fse/fse.c:RedFseWrite", "fse/fse.c:RedFseTruncate", "fse/fse.c:RedFseSizeGet", "fse/fse.c:RedFseFormat", "core/driver/format.c:RedVolFormat", "core/driver/core.c:RedCoreFileSizeGet"]}
{"id": "C44", "title": "FSE: volumes are independent, shutdown only when none is mounted", "statement": "Each volume behaves as specified by the calls made on it alone, whatever is done to the others. Before RedFseInit and with a wrong volume number every call fails with RED_EINVAL and changes nothing. RedFseUninit succeeds exactly when no volume is mounted, otherwise it fails with RED_EBUSY and changes nothing; initialising twice changes nothing.", "quantifier": "all numbers of volumes, all histories of calls and power losses over all volumes", "why_tests_cant": "interference between volumes would show only in particular histories of several volumes", "anchors": ["fse/fse.c:FseEnter", "fse/fse.c:RedFseInit", "fse/fse.c:RedFseUninit", "core/driver/core.c:RedCoreVolSetCurrent", "core/driver/core.c:RedCoreInit"]}
{"id": "C45", "title": "A device failure is no worse than a power loss", "statement": "Any read, write or flush of the device may fail, in any call. The failing call reports RED_EIO (a create that was already undoing another error reports that error). If it was a call that only reads, the volume becomes read-only and goes on showing the same files. If it was a call that modifies the volume, or a transaction, rollback or unmount, the volume stays mounted but read-only: every further modification, transaction and rollback is refused with RED_EROFS and statvfs says read-only, whatever else fails. A power loss at that moment, at any later moment, or inside the failing call leaves a state that a power loss during that call could have left without any device failure: the last committed state or one that the call itself was about to commit; never a mixture. Unmounting succeeds, and mounting again either fails with RED_EIO and may be retried, or gives a writable volume that shows and keeps such a state, provided the device then reads back what is permanently stored. Formatting an unmounted volume succeeds, or fails and leaves it unmounted; a power loss during it or after it then leaves the state the media held, no file system, or an empty file system; formatting may be repeated.", "quantifier": "all histories of calls, evictions and power losses in which any device operation may fail; all call arguments, masks and configurations", "why_tests_cant": "the failing operation can be any of those in any call after any history, combined with any later power loss", "anchors": ["core/driver/volume.c:RedVolCriticalError", "core/driver/volume.c:RedVolTransact", "core/driver/volume.c:RedVolRollback", "core/driver/volume.c:RedVolMount", "core/driver/blockio.c:RedIoRead", "core/driver/blockio.c:RedIoWrite", "core/driver/blockio.c:RedIoFlush", "core/driver/core.c:RedCoreVolUnmount", "core/driver/core.c:CoreCreate", "core/driver/inodedata.c:WriteAligned"]}
{"id": "C46", "title": "FSE: a device failure is no worse than a power loss", "statement": "Any read, write or flush of the device may fail, in any FSE call. The failing call returns RED_EIO. After a failing RedFseRead or RedFseSizeGet the volume is read-only, and until it is unmounted reads return the same contents as before or fail again; unmounting succeeds and mounting again gives a writable volume with the last committed files. After a failing write, truncate, transact, rollback or unmount the volume stays mounted but read-only: modifications, transactions and rollbacks are refused with RED_EROFS whatever else fails. A power loss inside the failing call or at any later moment leaves files that a power loss during that call could have left without any device failure; unmounting succeeds, and mounting again either fails with RED_EIO and may be retried, or gives a writable volume that shows and keeps such files, provided the device then reads back what is permanently stored. Formatting an unmounted volume succeeds, or fails and leaves it unmounted; a power loss during it or after it then leaves the state the media held, no file system, or all files with length zero; formatting may be repeated.", "quantifier": "all histories of FSE calls, evictions and power losses in which any device operation may fail; all call arguments, masks and configurations", "why_tests_cant": "the failing operation can be any of those in any call after any history, combined with any later power loss", "anchors": ["fse/fse.c:RedFseRead", "fse/fse.c:RedFseWrite", "fse/fse.c:RedFseTruncate", "fse/fse.c:RedFseSizeGet", "fse/fse.c:RedFseTransact", "fse/fse.c:RedFseMount", "fse/fse.c:RedFseUnmount", "core/driver/volume.c:RedVolCriticalError", "core/driver/volume.c:RedVolTransact", "core/driver/core.c:RedCoreFileSizeGet"]}
{"id": "C47", "title": "FSE calls from concurrent tasks are serialised", "statement": "Tasks may call the FSE functions at the same time, on the same or different volumes, and power may be lost at any moment. The results of all calls and the contents of all volumes are those of the same calls made one at a time in some order, in which each call lies between its invocation and its return; a call always works on the volume it was made for; the mutex is held by one task at a time, never by a task outside of a call, and its holder can always return without the help of another task. (RedFseInit and RedFseUninit only while no call is under way: RedFseUninit at other times can leave a mounted volume behind.)", "quantifier": "all schedules of any number of tasks and calls, all volumes, all power-loss points", "why_tests_cant": "the interleavings of the steps of several tasks are unbounded, and the current volume is a global variable", "anchors": ["fse/fse.c:FseEnter", "fse/fse.c:FseLeave", "fse/fse.c:RedFseMount", "fse/fse.c:RedFseUninit", "core/driver/core.c:RedCoreVolSetCurrent"]}
{"id": "C48", "title": "64-bit division, scaling and ratios without 64-bit divide instructions are exact", "statement": "RedUint64DivMod32 and RedUint64DivMod64 return the quotient and remainder of any 64-bit dividend and any non-zero divisor. RedMulDiv64 always returns; its result is zero if a multiplicand is zero, UINT64_MAX if only the divisor is zero, floor(base*multiplier/divisor) whenever the product fits in 64 bits, and otherwise the exact value, a value too small by less than the multiplier, or UINT64_MAX where the exact value is above or within the multiplier of it. RedRatio prints the integral part and exactly the requested decimal digits of the quotient when dividend*10^places fits in 64 bits.", "quantifier": "all 64-bit and 32-bit operands", "why_tests_cant": "the operand space has 2^96 to 2^160 elements and the corrections (estimate off by one, 32-bit carries) are needed for few of them", "anchors": ["tests/util/math.c:RedUint64DivMod32", "tests/util/math.c:RedUint64DivMod64", "tests/util/math.c:RedMulDiv64", "tests/util/math.c:RedRatio"]}
{"id": "C49", "title": "Numerals are converted to exactly the numbers they denote", "statement": "RedAtoI, RedHtoULL, RedHtoUL, RedNtoULL, RedNtoUL and RedSizeToUL, given any string that begins with a decimal numeral, or a hexadecimal numeral with or without the prefix 0x as the function demands, return its value and a pointer to the first character after it (and after the size suffix), whatever follows; without a digit they return NULL. A value that does not fit is refused where the documentation says so: negative numbers beyond INT32_MAX or INT64_MAX, hexadecimal 32-bit numbers, and sizes of 4 GB or more after scaling with B, KB (assumed without suffix) or MB.", "quantifier": "all strings, digit sequences of any length, suffixes and following characters", "why_tests_cant": "strings are unbounded, and the behaviour at the limits depends on the value and on what follows the number", "anchors": ["tests/util/atoi.c:RedAtoI", "tests/util/atoi.c:RedHtoULL", "tests/util/atoi.c:RedHtoUL", "tests/util/atoi.c:RedNtoUL", "tests/util/atoi.c:RedNtoULL", "tests/util/atoi.c:RedSizeToUL"]}
{"id": "C50", "title": "The pseudo-random number generator has period 2^64 and returns every number equally often", "statement": "For any seed, successive calls of RedRand64 with a seed pointer return the same number only at distances that are multiples of 2^64, and within 2^64 calls every 64-bit number is returned. RedRand32 returns the low 32 bits, and its 32-bit seed repeats after exactly 2^32 calls. Calls without seed pointer return the sequence that begins with the value given to RedRandSeed, or with the clock.", "quantifier": "all seeds, all numbers of calls, all 64-bit numbers", "why_tests_cant": "the claim is about 2^64 calls for each of 2^64 seeds", "anchors": ["tests/util/rand.c:RedRand64", "tests/util/rand.c:RedRand32", "tests/util/rand.c:RedRandSeed"]}
{"id": "C51", "title": "Formatted output is complete or cut off at the end of the buffer, and never beyond it", "statement": "RedSNPrintf and RedVSNPrintf write nothing outside of the buffer, whatever the format string (well-formed or not) and the arguments, and return -1 or the length of the NUL-terminated text. For a well-formed format (literal characters, %%, and the documented conversions with '-', a fill character, and a width given as a numeral or as '*') the buffer receives the text the format stands for: the decimal or upper-case hexadecimal numerals of the arguments without leading zeros, strings, characters, padded to the width. The text is cut off if the buffer is too small for it and the NUL, and then -1 is returned; otherwise its length.", "quantifier": "all formats (any sequence of items), all arguments, buffer lengths and buffer contents", "why_tests_cant": "formats, strings, widths and buffer sizes are unbounded, and every cut-off position is possible", "anchors": ["tests/util/printf.c:RedVSNPrintf", "tests/util/printf.c:RedSNPrintf", "tests/util/printf.c:ParseFormatSpecifier", "tests/util/printf.c:ParseFormatType", "tests/util/printf.c:ULLtoA", "tests/util/printf.c:FinishToA"]}
{"id": "C52", "title": "Command lines are parsed completely, in order, and operands are moved behind the options without reordering", "statement": "Successive calls of RedGetopt or RedGetoptLong report exactly the options on the command line, in order and with their arguments: grouped short options, with the argument attached or in the next word, long options (spelled in full or by a beginning that no other has) with '=' or the next word, with the index and the variable or value the caller declared. A character that is no option, a long option that does not exist, a beginning of several that differ, and an argument given with '=' to an option that takes none are reported as '?', and the options after it are still found. A missing argument at the end is reported as ':' if the option characters begin with ':', else as '?'. Operands may stand anywhere; \"--\" ends the options. When -1 is returned, the option words stand in their original order at the front of argv, followed by the operands in their original order, and red_optind is the index of the first operand.", "quantifier": "all command lines (any number and order of words), all declarations of short and long options", "why_tests_cant": "the in-place exchange of two blocks depends on their lengths and their greatest common divisor, and every interleaving of options and operands is possible", "anchors": ["tools/getopt.c:RedGetopt", "tools/getopt.c:RedGetoptLong", "tools/getopt.c:getopt_internal", "tools/getopt.c:parse_long_options", "tools/getopt.c:permute_args"]}
{"id": "C53", "title": "The host tools operate on the volume that was named, and only after an explicit yes", "statement": "A volume argument selects the first volume whose path prefix it is, otherwise the volume whose number it is (a decimal numeral as strtoul reads it); anything else except the empty string is refused with the number of volumes. The empty string, unless it is a prefix, selects volume 0. A confirmation prompt returns exactly when a complete line beginning with y, Y, n or N has been typed, and the first such line decides; at end of input without such a line the prompt never returns.", "quantifier": "all argument strings, all volume configurations (up to 255 volumes, both APIs), all inputs typed", "why_tests_cant": "there are infinitely many strings; a wrong volume is formatted only for unusual ones (numeral and prefix at once, signs, white space, overflow, empty)", "anchors": ["tools/toolcmn.c: RedFindVolumeNumber, RedConfirmOperation"]}
{"id": "C54", "title": "The RAM and file disks of the Linux port store exactly what was written", "statement": "Whatever the host does (failing or partial transfers, failing open, close or flush): a sector that was written successfully is read back unchanged until it is written again or the disk is configured anew, through any number of closings and openings and calls on other volumes; a failed write touches no other sectors; a successful read fills the whole buffer and stores nothing behind it; calls on a closed disk, in the wrong mode, or on sectors before the volume or across its end fail without effect; and transfers inside the volume succeed if the host moves all bytes. This holds for transfers below 4 GiB; above that a call can report success without transferring anything.", "quantifier": "all histories of calls on all volumes, both kinds of disk, all sector sizes, ranges, contents and host behaviours", "why_tests_cant": "failures and short transfers of the host, and lengths that exceed 32 bits, do not occur in tests", "anchors": ["os/linux/services/osbdev.c: RedOsBDevConfig, RedOsBDevOpen, RedOsBDevClose, RedOsBDevRead, RedOsBDevWrite, RedOsBDevFlush, RamDiskRead, RamDiskWrite, FileDiskRead, FileDiskWrite"]}
