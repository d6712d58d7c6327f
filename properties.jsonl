{"id": "C01", "title": "Format validity coincides with convertibility", "statement": "For every build configuration (S3TC/ETC/ASTC/PVRTC on or off), format and type, Texture::isFormatValid(format, type) is true exactly when the conversion machinery has a converter for that pair; hence convert() never fails after its argument checks passed.", "quantifier": "all 16 build configurations, all 62 formats, all 6 types", "why_tests_cant": "each test binary is built in one configuration and samples a few pairs", "anchors": ["lib/src/Texture.cpp:isFormatValid", "lib/src/Converter.cpp:createConverter"]}
{"id": "C02", "title": "Converted size is block count times block size", "statement": "After a successful conversion of a surface of size w x h to any non-PVRTC format, the data size is ceil(w/blockWidth) * ceil(h/blockHeight) * blockSize, where the three numbers are those reported by the public Texture::blockWidth/blockHeight/blockSize.", "quantifier": "all formats/types with a converter, all surface sizes whose byte size fits 32 bits", "why_tests_cant": "sizes are unbounded", "anchors": ["lib/src/Texture.cpp:blockWidth,blockHeight,blockSize", "lib/src/StandardConverter.cpp", "lib/src/S3tcConverter.cpp", "lib/src/EtcConverter.cpp", "lib/src/AstcConverter.cpp"]}
{"id": "C03", "title": "Supported file types never yield Unsupported", "statement": "For every texture converted by a build, save to a container accepts it (the answer is Success or WriteError, depending only on the stream) exactly when isFormatValid(format, type, fileType) is true in that build; otherwise the answer is Unsupported and the stream is untouched.", "quantifier": "all formats, types, colour spaces, file types", "why_tests_cant": "the table is large and spread over three independent switch statements", "anchors": ["lib/src/SaveDds.cpp:getDdsFormat", "lib/src/SaveKtx.cpp:getFormatInfo", "lib/src/SavePvr.cpp:getPixelFormat", "lib/src/Texture.cpp:isFormatValid"]}
{"id": "C04", "title": "hasAlpha agrees with the channels a format stores", "statement": "Texture::hasAlpha(f) is true exactly for the formats that store an alpha channel; the only exception in this code base is A4R4G4B4, for which it answers false although the format stores four bits of alpha.", "quantifier": "all 62 formats", "why_tests_cant": "exhaustive table; unit tests list a few", "anchors": ["lib/src/Texture.cpp:hasAlpha"]}
{"id": "C05", "title": "File headers identify the format", "statement": "For each container (DDS, KTX, PVR) the format fields written to the header determine the pixel format, type and colour space that were requested, up to the aliases listed in the theorem.", "quantifier": "all pairs of supported (format, type, colour space)", "why_tests_cant": "quadratic in the table; unit tests only look at single files", "anchors": ["lib/src/SaveDds.cpp", "lib/src/SaveKtx.cpp", "lib/src/SavePvr.cpp"]}
{"id": "C06", "title": "Mip count formula", "statement": "Texture::maxMipmapLevels(dim, w, h, d) is the number of halvings needed to reach 1x1 (x1 for 3D), plus one: floor(log2(max)) + 1, where depth counts only for 3D textures; and the last level is 1x1(x1) while the one before is not.", "quantifier": "all dimensions and all 32-bit sizes", "why_tests_cant": "2^96 inputs", "anchors": ["lib/src/Texture.cpp:maxMipmapLevels,width,height,depth"]}
{"id": "C07", "title": "Mip extents", "statement": "For every mip level below mipLevelCount(), width/height(/depth for 3D) are max(1, floor(size/2^level)), each level is obtained from the previous one by halving rounding down (never below one), and levels outside the range report 0; array depth never shrinks.", "quantifier": "all reachable textures, all levels", "why_tests_cant": "unbounded sizes and levels", "anchors": ["lib/src/Texture.cpp:width,height,depth"]}
{"id": "C08", "title": "initialize succeeds exactly on non-empty extents and clamps the level count", "statement": "initialize returns true iff width, height and, for 3D, depth are non-zero; on failure the texture is invalid; on success the level count is the request clamped to [1, maxMipmapLevels], all images are unset, the texture is unconverted and the faces are 6 exactly for cubes.", "quantifier": "all argument tuples and all prior states", "why_tests_cant": "unbounded inputs", "anchors": ["lib/src/Texture.cpp:initialize"]}
{"id": "C09", "title": "setImage stores exactly one image and never touches the others", "statement": "setImage returns true iff the texture is valid, the (face, level, depth) index exists, and the image has exactly that level's size (given the pixel conversion succeeds); afterwards getImage at that index returns the image converted to RGBAF in the texture's colour space, and every other getImage answer is unchanged; when the arguments are rejected nothing changes.", "quantifier": "all reachable textures, all indices, all images", "why_tests_cant": "unbounded histories", "anchors": ["lib/src/Texture.cpp:setImage,getImage"]}
{"id": "C10", "title": "Storage shape is an invariant of every history", "statement": "After any sequence of API calls (initialize, reset, setImage, generateMipmaps, convert) in which generateMipmaps never fails on a 3D texture and is not called after a conversion, every public accessor indexes inside its storage (no undefined behaviour). Without those two conditions out-of-bounds accesses are reachable, and the theorem exhibits the histories.", "quantifier": "all finite API histories and all accessor arguments", "why_tests_cant": "histories are unbounded and undefined behaviour need not be visible in a test", "anchors": ["lib/src/Texture.cpp"]}
{"id": "C11", "title": "imagesComplete means every visible image is set (non-3D)", "statement": "For 1D, 2D and cube textures (and arrays of them) imagesComplete() is true iff getImage returns a valid image for every (face, level, depth) in range. For 3D textures with several levels it additionally requires slots that no API index can reach, so setting every visible image is not enough whenever the depth shrinks.", "quantifier": "all reachable textures", "why_tests_cant": "unbounded sizes", "anchors": ["lib/src/Texture.cpp:imagesComplete,initialize"]}
{"id": "C12", "title": "generateMipmaps fills every level with the right extents", "statement": "When generateMipmaps returns true, the level count is the clamped request, level 0 is unchanged, every level/depth/face holds a valid RGBAF image of that level's extents and the texture is complete, provided every custom image has a pixel format the chosen filter can resize. Without that proviso (e.g. an Int16 custom image and the Cubic filter) it returns true on an incomplete texture; the theorem exhibits it.", "quantifier": "all reachable textures, filters, level counts, custom images", "why_tests_cant": "unbounded inputs", "anchors": ["lib/src/Texture.cpp:generateMipmaps"]}
{"id": "C13", "title": "Custom mip images are used where requested", "statement": "When generateMipmaps returns true, each custom image with an in-range index is what its level holds (resized to the level's extents, as RGBAF, in the image's own colour space even if the texture's differs), 'Continue' images are the source of the following generated levels, and 'Once' images do not influence any other level. The last clause fails for arrays and cubes when a 'Once' image sits on the last level: it then replaces the source of level 1 of the next face or layer; the exact content of every level is proved.", "quantifier": "all custom mip maps and texture shapes", "why_tests_cant": "combinatorial in the custom images", "anchors": ["lib/src/Texture.cpp:generateMipmaps"]}
{"id": "C14", "title": "generateMipmaps succeeds exactly on a complete base and consistent custom mips", "statement": "generateMipmaps never hits undefined behaviour on a reachable texture and returns true exactly when the texture is valid, every image of level 0 is set, every custom image is valid and, for 3D textures, each level has custom images for all its depths or for none, with one replacement mode. On false a non-3D texture is unchanged; a 3D texture with inconsistent custom images has already changed its level count.", "quantifier": "all custom image maps, all depths", "why_tests_cant": "combinatorial", "anchors": ["lib/src/Texture.cpp:generateMipmaps"]}
{"id": "C15", "title": "convert succeeds exactly when its documented preconditions hold, and otherwise changes nothing", "statement": "convert returns true iff every image is set, isFormatValid(format, type) holds and the colour space is linear or the format has native sRGB; on false the texture is unchanged, on true format/type/alpha/mask are the requested ones, the texture is converted, its images are consumed, and data exists for every (face, level, depth).", "quantifier": "all reachable textures, all arguments, all build configurations, any pixel encoder", "why_tests_cant": "unbounded histories", "anchors": ["lib/src/Texture.cpp:convert", "lib/src/Converter.cpp:convert"]}
{"id": "C16", "title": "Multithreaded conversion is schedule independent", "statement": "For every converter whose jobs write disjoint bytes, every number of threads and every interleaving of the worker threads terminates, runs every job exactly once, writes no byte twice, and leaves exactly the bytes that the single-threaded loop produces.", "quantifier": "all thread counts, all job counts, all schedules (interleaved at single-byte writes)", "why_tests_cant": "schedules are unbounded and non-deterministic", "anchors": ["lib/src/Converter.cpp:convert"]}
{"id": "C17", "title": "Pixel converters tile the output exactly", "statement": "For every width and height (with w*h below 2^32 - 31 and w*h*channels at most 2^32), the batch jobs of the uncompressed converters together write every pixel exactly once at its row-major position, read only existing pixels and write inside the buffer; pixel (x, y) of the image decides exactly the bytes of pixel y*w + x.", "quantifier": "all image sizes, all jobs", "why_tests_cant": "unbounded sizes", "anchors": ["lib/src/StandardConverter.h", "lib/src/StandardConverter.cpp"]}
{"id": "C18", "title": "Block converters tile the output exactly and read clamped pixels", "statement": "For every image size and block size, the block jobs write disjoint ranges that cover the buffer; the pixels given to the block encoder are those of the block's footprint with coordinates clamped to the image (edge replication), so every read is inside the image.", "quantifier": "all image sizes, block sizes, jobs", "why_tests_cant": "unbounded sizes", "anchors": ["lib/src/S3tcConverter.cpp:process", "lib/src/AstcConverter.cpp:process", "lib/src/EtcConverter.cpp:process"]}
{"id": "C19", "title": "Unsigned normalised quantisation is correct for every float", "statement": "For every non-NaN binary32 channel value the UNorm conversion stores round(clamp(v,0,1)*(2^n-1)): it is in range, 0 and 1 map to 0 and 2^n-1, it is monotone, its distance to the real product is at most 1/2 plus the binary32 rounding error, and re-encoding a decoded value is the identity. NaN reaches a float-to-integer cast whose behaviour is undefined.", "quantifier": "all 2^32 binary32 values, all channel widths used", "why_tests_cant": "2^32 values per channel", "anchors": ["lib/src/StandardConverter.cpp", "lib/src/Shared.h:clamp"]}
{"id": "C20", "title": "Signed normalised quantisation is correct for every float", "statement": "For every non-NaN binary32 value the SNorm conversion stores, in two's complement, round(clamp(v,-1,1)*(2^(n-1)-1)): it lies in [-(2^(n-1)-1), 2^(n-1)-1], is odd (negating the value negates the result), monotone, exact at -1, 0, 1, within half a step (plus binary32 rounding) of the real product, and re-encoding a decoded value is the identity. NaN in a stored channel reaches an undefined float-to-integer cast, and nothing else does.", "quantifier": "all binary32 values", "why_tests_cant": "2^32 values", "anchors": ["lib/src/StandardConverter.h", "lib/src/StandardConverter.cpp"]}
{"id": "C21", "title": "Integer conversion saturates, except for 32-bit channels", "statement": "For 8, 10 and 16 bit integer formats every non-NaN value is converted to the nearest integer of the value clamped to the type's range, with no undefined cast. For 32-bit formats the clamp bound rounds up to 2^32 (2^31), so exactly the values at or above that bound (and NaN) reach an undefined cast; below it the stored integer is the nearest one. Integers in range are stored exactly and the conversion is monotone.", "quantifier": "all binary32 values, all integer channel types", "why_tests_cant": "2^32 values; undefined behaviour is not observable by tests", "anchors": ["lib/src/StandardConverter.h"]}
{"id": "C22", "title": "Packed formats keep channels in their documented bit fields", "statement": "For every packed format and every channel values, unpacking the stored word by the format's documented layout (name order from the most significant bits for packed types, byte order for byte types) gives back each channel's quantised value; channels never disturb each other.", "quantifier": "all packed formats, all channel values", "why_tests_cant": "all combinations of four channels", "anchors": ["lib/src/StandardConverter.cpp"]}
{"id": "C25", "title": "DDS files can be read back", "statement": "For every converted texture saved successfully as DDS, an independent reader following the DDS/DX10 documentation recovers the dimension, extents, level count, array size, type, colour space, a pixel description that is the texture's format, the alpha mode (except for A4R4G4B4, whose alpha the library does not see) and the exact bytes of every (element, face, level, slice), and the file has no trailing bytes. The flag DDS requires on files with several surfaces is set exactly for textures with several levels, volumes and arrays; it is missing from single-level cube maps. The header's pitch is the size of a row of pixels, or of a row of blocks, of the first level whenever that fits 32 bits, and the flag announcing mipmaps is set exactly when there are several levels.", "quantifier": "all converted textures", "why_tests_cant": "unbounded sizes and structures", "anchors": ["lib/src/SaveDds.cpp:saveDds"]}
{"id": "C26", "title": "KTX files can be read back", "statement": "For every converted texture saved successfully as KTX whose levels take less than 2^32 bytes (and whose height is 1 if it is one-dimensional), an independent reader following the KTX 1.1 specification recovers extents, array/face/level counts, GL fields that name the texture's format (with the byte order of the data for all formats but B8G8R8A8 and A8B8G8R8) and every surface's bytes, with the mandated 4-byte row padding, and the file has no trailing bytes. A 1D texture with several rows yields an unreadable file.", "quantifier": "all converted textures", "why_tests_cant": "unbounded sizes and structures", "anchors": ["lib/src/SaveKtx.cpp:saveKtx"]}
{"id": "C27", "title": "PVR files can be read back", "statement": "For every converted texture that savePvr accepts, an independent reader following the PVR v3 specification recovers extents, counts, pixel format, channel type, colour space, flags, metadata blocks and every surface's bytes, and the file has no trailing bytes.", "quantifier": "all converted textures", "why_tests_cant": "unbounded sizes and structures", "anchors": ["lib/src/SavePvr.cpp:savePvr"]}
{"id": "C28", "title": "Every stream failure is reported", "statement": "For every container and every output stream (buffered or not, failing at any point including the middle of a field): save returns Success exactly when the stream is still good, and then it accepted the whole file; otherwise it returns WriteError and what reached the destination is a prefix of the file a healthy stream would have received. A stream that had failed before gets WriteError and no byte. Saving to a named file leaves on the device the part of the file that fits, and reports Success whenever it fits; but a failure while the file's buffer is flushed at the end is not reported.", "quantifier": "all textures, all streams, all failure points", "why_tests_cant": "crash points are unbounded", "anchors": ["lib/src/SaveDds.cpp", "lib/src/SaveKtx.cpp", "lib/src/SavePvr.cpp", "lib/src/Shared.h:write"]}
{"id": "C29", "title": "Saving to memory equals saving to a stream", "statement": "save(std::vector) returns the same result as save(ostream), and on success the vector holds exactly the bytes of the stream whichever of the two read paths (seekable or chunked) the stream takes.", "quantifier": "all textures, all chunkings", "why_tests_cant": "unbounded sizes", "anchors": ["lib/src/Texture.cpp:save", "lib/src/Shared.cpp:readStreamData"]}
{"id": "C30", "title": "File type detection is a case-insensitive suffix test", "statement": "fileType(name) is DDS/KTX/PVR exactly when the name ends in .dds/.ktx/.pvr in any letter case, and Auto otherwise.", "quantifier": "all strings", "why_tests_cant": "unbounded strings", "anchors": ["lib/src/Texture.cpp:fileType"]}
{"id": "C31", "title": "save reports misuse before touching the stream", "statement": "Saving an unconverted or invalid texture to a stream returns Invalid, an undecidable file type UnknownFormat and an unsupported format Unsupported, in all cases without writing a byte. Saving to a named file leaves an existing file alone for a null name or an unconverted texture, but truncates it for the other two.", "quantifier": "all textures and file types", "why_tests_cant": "all states", "anchors": ["lib/src/Texture.cpp:save"]}
{"id": "C33", "title": "Rotation is a bijective quarter-turn", "statement": "Image::rotate either yields no image (FreeImage gave nothing and no bitmap can be allocated) or the image turned: for every image size, pixel (x, y) of a quarter turn counter-clockwise goes to (y, width-1-x), and correspondingly for half and three quarter turns; rotating by an angle and then by its inverse, or four times by 90 degrees, is the identity; 90/270 swap width and height. FreeImage_Rotate is assumed to do the same when it returns a bitmap.", "quantifier": "all image sizes and pixel contents", "why_tests_cant": "unbounded sizes", "anchors": ["lib/src/Image.cpp:rotate"]}
{"id": "C34", "title": "Swizzle permutes channels pointwise", "statement": "Image::swizzle sets each channel of each pixel to the selected source channel (None gives 0 for colour, 1 for alpha), using the original values even when channels are exchanged, as far as the format stores the channel; in formats with four channels selections compose and exchanging twice is the identity. RGB565 stores the closest value when green is mixed with red or blue, so there two exchanges can lose information.", "quantifier": "all images, all selector tuples", "why_tests_cant": "625 selectors times all images", "anchors": ["lib/src/Image.cpp:swizzle"]}
{"id": "C35", "title": "Pixel values survive a get/set round trip", "statement": "For every pixel format, writing back the colour obtained by getPixel leaves the image unchanged (8/16-bit normalised, 5/6-bit packed, integer, float, double, complex; the unused bit of RGB5 is cleared and a NaN stays a NaN); setPixel changes no other pixel. With the grayscale conversion requested this also holds for images that are not both gray and sRGB, except for Double (5 changes) and for UInt16 values above 32767 (undefined conversion).", "quantifier": "all stored pixel values", "why_tests_cant": "2^16..2^128 values", "anchors": ["lib/src/Image.cpp:getPixelImpl,setPixelNoGrayscaleImpl"]}
{"id": "C36", "title": "Resizing and 3D mip generation are weighted averages of existing samples", "statement": "When the library resizes an image itself (16-bit signed, 32-bit and double formats; box and linear filters) each output pixel is the weighted average, over both axes, of the source pixels with weight 1 inside the extent of the output pixel (box) or a weight falling linearly to 0 at one extent from its centre (linear), truncated for integer formats; 3D mip layers are the corresponding averages along the depth, of colours in linear space and of alpha as it is. For all source and destination sizes every sample read exists, the total weight is positive (no division by zero), a constant image stays constant and every output is between the smallest and the largest input under its filter: exactly so in real arithmetic. In the program's binary64 arithmetic every read exists, no conversion overflows, the weights differ from these by at most 2^-18 (a box sample within 2^-18 of the edge of the extent may count either way) and the average by at most (m+2)*2^-50 times the largest magnitude, m the number of samples reached; box results of integer formats are exactly the truncated average for up to 2^17 samples, so constants and bounds are kept. Linear resizing of integer images can turn a constant v into v-1, and the other three filters give an invalid image for these formats. An sRGB image is resized in linear space: the result is that of changing it to linear, resizing and changing back. The layers of an sRGB volume with colours from 0 to 1 are, in the program's arithmetic, within 12*2^-22 (alpha 2^-22) plus 14 times that bound of the sRGB number of the average.", "quantifier": "all size pairs, all positions, all pixel values", "why_tests_cant": "unbounded sizes", "anchors": ["lib/src/Image.cpp:resize", "lib/src/Texture.cpp:generateMips3d"]}
{"id": "C37", "title": "Normal maps are unit length, in range and wrap as requested", "statement": "createNormalMap takes the red channel as heights. For every size including 1x1 and all options it reads only existing pixels; the slope of a pixel is the difference of its two neighbours times the height over the distance, where the neighbour beyond an edge is the opposite edge (distance 2) exactly when wrapping is enabled for that axis and the pixel itself (distance 1) otherwise; red falls to the right and green upwards. Each pixel of the result, read back with getPixel, is the vector of length one along (slope x, slope y, 1), encoded as (v+1)/2 unless KeepSign is given, within 2^-23 (float formats) or half a step (8 and 16 bits), with components inside [0,1] (or [-1,1] with KeepSign in float formats; 0 for negative values in unsigned formats), blue never negative and alpha 1, as long as heights times height stay below 2^399; all other destination formats are filled too, except that KeepSign with UInt32 can convert a negative number (undefined behaviour). Beyond the bound the squares overflow and the stored normal can be the zero vector. A null image or a failed allocation gives an invalid image.", "quantifier": "all image sizes, source formats, pixel values and heights in binary64, destination formats and options", "why_tests_cant": "unbounded sizes, real-valued heights", "anchors": ["lib/src/Image.cpp:createNormalMap"]}
{"id": "C38", "title": "sRGB and linear conversions are inverse", "statement": "Over the real numbers, sRGBToLinear is strictly increasing on the non-negative numbers, linearToSRGB is strictly increasing below and above its threshold 0.0031308 but drops by less than 0.00000003 where the two pieces meet (so it is not monotone there), both fix 0 and 1 and map [0,1] into [0,1], and they are mutually inverse outside the thin gap between the two published thresholds, inside which the round trip is off by less than 0.0000001.", "quantifier": "all reals in [0,1]", "why_tests_cant": "uncountable domain", "anchors": ["lib/include/cuttlefish/Color.h"]}
{"id": "C39", "title": "adjustImageValueRange maps stored integers to themselves", "statement": "For UInt targets an n-bit stored level k of a normalised image is adjusted to exactly k and for Int targets to exactly k - 2^(n-1), on integer images and on float images that were converted from such a format; for SNorm targets a value v becomes 2v-1 correctly rounded. The image is unchanged for all other targets, for source formats that are not normalised and for integer images. The alpha of an RGBAF image whose original format was RGB5 or RGB565 becomes 0 for integer targets.", "quantifier": "all 5/6/8/16-bit values, all formats and types", "why_tests_cant": "2^16 values times formats", "anchors": ["lib/src/Texture.cpp:adjustImageValueRange"]}
{"id": "C40", "title": "Power-of-two rounding", "statement": "nextPO2(n) is the least power of two >= n for 1 <= n <= 2^31, and nearestPO2(n) is a power of two at minimal distance (ties go down); n = 0 and n > 2^31 give 0.", "quantifier": "all 32-bit values", "why_tests_cant": "2^32 values", "anchors": ["tool/main.cpp:nextPO2,nearestPO2"]}
{"id": "C41", "title": "A successful parse is a consistent job", "statement": "If CommandLine::parse succeeds then: at least one image is given and no image name is empty; the image count fits the kind of input (1, 6, a multiple of 6); cube inputs have cube dimension; the format is known, the output is given, the file type is decided and supports the format with the type; an sRGB texture colour space implies a format with native sRGB; custom mips exist only with mipmapping, have distinct indices, are never for level 0, lie within the image depth, and for a 3D texture every level with a custom mip has exactly as many entries as the level has slices. Whole 3D levels being covered, and cube mips lying within the number of cubes, fail in this code base: the witnesses are exhibited.", "quantifier": "all argument vectors, all list files", "why_tests_cant": "unbounded inputs", "anchors": ["tool/CommandLine.cpp:parse,validate"]}
{"id": "C42", "title": "Option values reach the configuration unchanged", "statement": "The arguments are cut into one segment per option, and in a successful parse every value of the configuration (format, quality, dimension, output, file type, alpha mode, type, flips, grayscale, normal map, swizzle, pre-multiply, directory creation, colour spaces, rotation modulo a full turn) is the one given by the segments of its option: the last one where options repeat, the default where it is absent. A type given after the last format is the one used. The type surviving any option order, and an unknown format being refused, fail in this code base: the witnesses are exhibited.", "quantifier": "all argument vectors", "why_tests_cant": "option order is combinatorial", "anchors": ["tool/CommandLine.cpp:parse"]}
{"id": "C43", "title": "The parser is defined and terminates on every argument vector", "statement": "For every argument vector parse ends. Without an input list and with numbers below 2^61 it never accesses the image list out of bounds; it never shifts by the word size unless the last dimension option asks for 3D. With neither, the result is a configuration, a refusal or an out-of-memory exception. Out-of-bounds accesses after a short cube list, with the array index -1 and with a cube index that wraps around, and the shift by 40 for a volume, are exhibited.", "quantifier": "all argument vectors", "why_tests_cant": "memory errors are not observable by tests", "anchors": ["tool/CommandLine.cpp:parse"]}
{"id": "C44", "title": "Tool exit status", "statement": "The tool exits with 0 only if a texture file was saved successfully; directories are only created after a write error, and only with --create-dir.", "quantifier": "all arguments and library outcomes", "why_tests_cant": "environment behaviour is unbounded", "anchors": ["tool/main.cpp:main,saveTexture"]}
{"id": "C45", "title": "Parent directory creation visits every ancestor once, in order", "statement": "createParentDir issues mkdir for exactly the proper path prefixes that end before a separator after the first character, from the root down, stops at the first failure that is not EEXIST, and succeeds iff none failed.", "quantifier": "all path strings, all mkdir outcomes", "why_tests_cant": "unbounded paths", "anchors": ["tool/main.cpp:createParentDir"]}
{"id": "C46", "title": "ASTC encoder contexts are never shared or leaked", "statement": "For every history of construction and destruction of the objects that own encoder contexts, by any number of threads: no context is allocated twice, handed out while in use, handed out for a configuration other than its own, freed while in use or freed twice; the holder of a context is its only user; never more contexts are kept unused than the capacity; an unused context of the right configuration is used again rather than allocating; after exit with no object alive every allocated context has been freed. All this is defined for a capacity of at least one; with capacity 0 (hardware_concurrency() = 0) the first release is undefined, which is exhibited.", "quantifier": "all histories of acquire/release", "why_tests_cant": "unbounded concurrent histories", "anchors": ["lib/src/AstcConverter.cpp:AstcContextManager"]}
{"id": "C47", "title": "Copies of custom mip images are independent", "statement": "A CustomMipImage built from an image shows exactly that image, with the replacement mode it was given. Copy and move construction of CustomMipImage preserve the image and the replacement mode and never alias the source object's storage; assignment preserves the image but, in this code base, not the replacement mode.", "quantifier": "all finite histories of constructing, copying, moving, assigning and destroying such objects, owning or borrowing", "why_tests_cant": "aliasing is not observable by value tests", "anchors": ["lib/src/Texture.cpp:CustomMipImage"]}
{"id": "C48", "title": "Pre-multiplication and grayscale are pointwise and leave alpha alone", "statement": "preMultiplyAlpha multiplies exactly the colour channels by alpha, stores the closest integer (8/16-bit) or the correctly rounded product (float), leaves alpha, opaque pixels and images without alpha alone; grayscale gives equal channels holding the luminance to half a step, preserves gray pixels of normalised and float formats and alpha; images of plain integers may lose one unit (5 becomes 4); neither touches other pixels. On sRGB images both work in linear space: with normalised channels the result is the encoded product (luminance) of the decoded channels to half a step plus 0.00000004 of the range, and opaque (gray) pixels are still kept exactly, for any std::pow with a relative error of at most 2^-50.", "quantifier": "all images", "why_tests_cant": "all pixel values", "anchors": ["lib/src/Image.cpp:preMultiplyAlpha,grayscale"]}
{"id": "C49", "title": "An input list names its images in order", "statement": "If a job starts with an input list and has no other image option, the images of the job are exactly the non-empty lines of the file, in order, for any mixture of line ends.", "quantifier": "all file contents, all remaining arguments", "why_tests_cant": "unbounded inputs", "anchors": ["tool/CommandLine.cpp:readImageList,readUntilChar,parse"]}
{"id": "C50", "title": "A custom mip list file is read back as written", "statement": "A list of custom mips with distinct indices, written one per line as level, depth, face, replacement and file name (which may contain spaces), is read back as exactly these mips, added to those already known; reading any list file ends.", "quantifier": "all lists of mips, all file names without line ends and leading white space; for termination all file contents", "why_tests_cant": "unbounded inputs", "anchors": ["tool/CommandLine.cpp:readCustomMipList,readNextToken,readUntilChar"]}
{"id": "C51", "title": "Decimal numbers on the command line are read as written", "statement": "Every number below 2^64 written in decimal is read as this number, larger ones as 2^64-1. Exactly the arguments made of white space (tab, line feed, vertical tab, form feed, carriage return, space), a sign or none and at least one digit are numbers, besides the empty one, which counts as 0: unsigned ones are limited to 2^64-1 or, after a minus sign, taken modulo 2^64, so that refusing negative numbers fails (-n is read as 2^64-n); signed ones are limited to the range of 64 bits.", "quantifier": "all strings and numbers", "why_tests_cant": "unbounded inputs", "anchors": ["tool/CommandLine.cpp:readIndex"]}
{"id": "C52", "title": "Every command line the tool accepts has exactly one reading, and every setting is the one that reading says", "statement": "An accepted command line splits in exactly one way into options with their operands (an optional operand is taken exactly when the next word can be read as one), and every setting the tool goes on to use - jobs, verbosity, kind of input, size and filters, mip levels, flips, turns, normal map options, swizzle and channel mask, colour spaces, alpha, dimension, format and type, quality, output, file type and directory creation - is the one the options say: the last one given, the union for switches, and the documented default otherwise. Conversely every command line of that grammar with one image, the elements of an array in order or the six faces of a cube in any order, no custom mips, existing formats, exactly one output and a combination of format, type and file type the library can write is accepted. Names are compared letter by letter without regard to the case of A to Z, up to a NUL character.", "quantifier": "all argument lists of any length, all optional features built in, all meanings of 'is a floating point number', all contents of list files", "why_tests_cant": "The words can be combined in unboundedly many orders; optional operands make the reading depend on the words that follow.", "anchors": ["tool/CommandLine.cpp: CommandLine::parse, validate, readIndex, readCubeFace, readChannel, readSize, readResizeFilter", "tool/CommandLine.h: CommandLine"]}
{"id": "C53", "title": "Every input image and custom mip goes to the place its option names", "statement": "For an accepted command line whose cube numbers are below 2^61, the image list has in each place exactly the file the options put there: the only image, the element of the array with the given index (or the next free one after the last), the face of the cube, face f of cube i at 6 i + f, or line k of the list file; no place is named twice and no place is empty. The table of custom mips holds, in order, exactly the entries of the -M options and list files. With a cube number of about 2^64/6 the place wraps around and the image silently becomes a face of another cube.", "quantifier": "all argument lists, all contents of list files", "why_tests_cant": "The places depend on the order and number of all image options, and wrap only for enormous numbers.", "anchors": ["tool/CommandLine.cpp: CommandLine::parse, readIndex, readCubeFace, strToCubeFace, readImageList, readCustomMipList"]}
{"id": "C54", "title": "The file the tool writes is the texture the command line asks for", "statement": "When a run of the tool on an accepted command line ends with status 0, the last thing it did is save one texture, and the output file holds the beginning of that texture's file (all of it if there was room). The texture has the dimension, colour space, format, type, alpha, channel mask, array flag, size (the asked size, turned by a quarter turn), number of layers, faces and levels the options say; the first level of each face and layer is the input given for that place, processed in the documented order (convert to float, colour space, resize, rotate, grayscale, normal map, flips, swizzle, pre-multiply, value range) and encoded; a level with a custom mip is that file, processed alike and brought to the size of the level; the other levels are made from the level before. Read back as DDS, KTX or PVR, the file has exactly these surfaces. The processed image of a level has the level's size except when a custom mip is both turned by a quarter and made into a normal map, where it has the size before the turn and is stretched.", "quantifier": "all accepted command lines, all image files and their contents, all orders of the table of custom mips, all encoders that respect the block size, all file systems and amounts of free space", "why_tests_cant": "The options combine in unboundedly many ways with any number of images, levels and custom mips.", "anchors": ["tool/main.cpp: loadAndProcessImage, loadImages, saveTexture, main", "lib/src/Texture.cpp: setImage, generateMipmaps, convert, save"]}
{"id": "C55", "title": "Every run of the tool ends with the documented exit status, and touches files only to save", "statement": "Every run on an accepted command line (whose output path has no NUL, and whose custom slices of one level of a volume all have the same replacement mode) ends without undefined behaviour. It ends with status 2 and no file touched exactly when an input or custom mip cannot be loaded or a custom mip lies outside the texture; with status 3 and no file touched when the images have no pixels or a volume has no slices; otherwise the texture asked for is saved: status 0 if the save reports success; status 3 if it reports a write error and directories are not to be created, or one of them cannot be created; with directory creation the missing parents are created in order and the save is tried once more, and decides. Without the condition on replacement modes it is false: an accepted command line for a volume of four slices whose level 1 mixes 'once' and 'continue' reads outside an array when saving.", "quantifier": "all accepted command lines, all inputs, all outcomes of opening, writing and mkdir", "why_tests_cant": "All combinations of command line, input and failure point.", "anchors": ["tool/main.cpp: main, loadImages, saveTexture, createParentDir"]}
{"id": "C56", "title": "Changing the colour space keeps the picture", "statement": "changeColorSpace does nothing but succeed if the image is in the requested space, and fails only without an image. Otherwise it keeps size, format and alpha, sets the colour space, and turns every colour channel into its linear (or sRGB) value: to the nearest step for images of normalised 5, 6, 8 and 16-bit channels, to a relative error of 2^-23 for float images and 2^-44 for doubles. From linear to sRGB and back a normalised channel moves by at most one step and from sRGB to linear and back by at most six (an 8-bit 5 becomes 0); floats in [0,1] come back within 0.000002. Images of plain 16- and 32-bit integers are converted without scaling: the result is defined exactly while the converted value fits the format, and an sRGB image of 16-bit integers holding 1000 does not (undefined behaviour). All this holds for any std::pow with a relative error of at most 2^-50.", "quantifier": "all images, all pixel values, all accurate power functions", "why_tests_cant": "the colour space of every pixel value of every format, including floats, and every libm", "anchors": ["lib/src/Image.cpp:changeColorSpace", "lib/include/cuttlefish/Color.h:sRGBToLinear,linearToSRGB"]}
{"id": "C57", "title": "Converting an image to another format keeps its colours", "statement": "Image::convert of no image gives no image, and to the image's own format the same image. For a documented list of format pairs (own_conversion: anything from or to UInt16, to Complex, between float formats, float or gray formats to Double, 5/6-bit RGB to RGBF, and colour to gray when no gray conversion is wanted or the image is sRGB) FreeImage is not asked; for the others FreeImage's bitmap is the result, with the requested format and the source's colour space. When FreeImage is not asked or declines, the result has the requested format, the same size and colour space, and every pixel holds the source pixel's colour: the nearest step of [0,1] for normalised integers (clamped), the nearest float or double, the whole part for plain integers; single channel formats hold red; missing alpha is 1; plain integers and floats become doubles exactly; floats keep every value between float formats, infinities and NaNs included. A plain integer that does not fit (UInt16 40000 to Int16) and a NaN that is to become gray are undefined behaviour. With gray conversion a linear pixel becomes its luminance, and an sRGB pixel the encoding of the luminance of its decoded channels; complex images are never converted to gray. Without memory the result is no image.", "quantifier": "all images, formats and pixel values, every FreeImage, every accurate power function", "why_tests_cant": "17 x 17 formats, two colour spaces, both gray modes and every pixel value including NaNs", "anchors": ["lib/src/Image.cpp:convert,getPixelImpl,setPixelNoGrayscaleImpl,setPixelImpl,needFloatConvertFallback,isRGB16BPPFormat"]}
{"id": "C58", "title": "The descriptor of an image fits its bitmap", "statement": "An image initialised with a format, size and colour space is empty (no memory) or has exactly that format, size and colour space, the bits per pixel of the format, and a fixed table of channel masks and shifts; an invalid format gives an empty image. A loaded image is empty or has the size of the bitmap FreeImage loaded and the colour space asked for; without a palette it is that bitmap, in the format given by a table over FreeImage's type, bits per pixel and green mask (16-bit unsigned becomes Gray16, never UInt16; 1-bit, 4-bit and other 16-bit layouts are rejected); with a palette it becomes RGBA8 if transparent and RGB8 otherwise. A file FreeImage can load into a supported layout is loaded. The results of convert, resize, rotate and createNormalMap are empty or have the expected format, colour space and size (quarter turns swap the sides), and operations in place keep format and size, given that FreeImage's functions make bitmaps of the sizes they promise. The masks and shifts extract red and green of the 16-bit formats and alpha of RGBA8 from every word; they do not extract blue in any format nor colour in RGB8 and RGBA8, since the blue mask is the green one and those shifts are 0.", "quantifier": "all formats, sizes, colour spaces, FreeImage behaviours that keep their contract, programs leading to the call, and all pixel words", "why_tests_cant": "every history before the call, every bitmap FreeImage may return and every pixel word", "anchors": ["lib/src/Image.cpp:getFormat,getFreeImageFormat,Image::Impl::create,Image::load,Image::initialize", "lib/include/cuttlefish/Image.h:redMask,redShift"]}
{"id": "C59", "title": "Images own their bitmaps: no sharing, leaks or use after free", "statement": "In every program that creates, copies, moves, assigns, loads, initialises, resets, changes, converts, resizes, rotates and destroys images, with every call into FreeImage free to fail, no bitmap or memory stream is used after it is released or released twice; at every point every bitmap that exists is held by exactly one image, no stream stays open, and once every image is destroyed or empty nothing is left. A statement changes only the images it assigns: an image and its copies never share pixels. A copy or assignment gives an image equal to the original, or an empty one if FreeImage has no memory; self-assignment changes nothing; a move hands the image over and leaves the source empty.", "quantifier": "all programs over any number of image variables, every FreeImage including failures at any call", "why_tests_cant": "every sequence of operations and every failure point", "anchors": ["lib/src/Image.cpp:Image::Impl,Image::Image,Image::operator=,Image::load,Image::initialize,Image::reset,Image::convert,Image::resize,Image::rotate,Image::createNormalMap"]}
{"id": "C60", "title": "Encoders of compressed formats get the pixels of the image", "statement": "For BC1, BC2, BC3, BC4, BC5, BC7 and PVRTC the encoder of a block gets, for every pixel of the block (the last row and column repeated past the edge; for PVRTC the whole image), one byte per channel it reads: the value limited to [0, 1] times 255, to the nearest, within half a step of the value; the float nearest to k/255 gives k; the conversion is undefined exactly if one of these values is NaN. Signed BC4 and BC5 get two's complement bytes of the value limited to [-1, 1] times 127. BC2 stores alpha itself: four bits per pixel, even pixels low, the nearest of fifteenths. BC1 with alpha uses the encoder with transparency exactly if some alpha of the block is below one half. BC6H gets half floats without limits. ASTC, ETC and unsigned EAC get the floats unchanged (for ETC only the part inside the image, with its size). Signed EAC gets red and green mapped from [-1, 1] to [0, 1] in order and within 2^-23; this is defined exactly for blocks completely inside the image, otherwise pixels that were never written are read.", "quantifier": "all compressed formats, image sizes, pixels (including infinities and NaN), blocks, settings, builds and packers", "why_tests_cant": "every float in every channel of every block of images of every size", "anchors": ["lib/src/S3tcConverter.cpp:toColorBlock,packBc2Alpha,compressBlock", "lib/src/EtcConverter.cpp:EtcConverter::process", "lib/src/AstcConverter.cpp:AstcConverter::process", "lib/src/PvrtcConverter.cpp:PvrtcConverter::process"]}
{"id": "C61", "title": "Quality, colour mask, alpha type and colour space reach the encoders", "statement": "No setting changes which pixels an encoder is given, the bytes the converter writes itself or whether the conversion is defined. The encoder's level, search radius and effort never shrink with a better quality; the level is between the encoder's least and greatest, which the lowest and highest quality use; the effort is within the encoder's bounds. The colour mask is looked at only by BC1 with alpha, BC7 without ISPC and ASTC, the alpha type only by ASTC and PVRTC, the colour space of the texture only by ETC1 and ETC2 and that of the image only by BC1 with alpha, BC7 and ASTC; every other format ignores them. Where it is looked at, a masked channel has weight 0 or reads as 0 and others keep a positive weight; ASTC without alpha reads alpha as 1. The mode of the encoder follows the format and type: three-colour blocks never in BC2, black as transparent only in opaque BC1, signed BC6H for Float only, the HDR profile for UFloat only, PVRTC's premultiplied flag for premultiplied alpha only.", "quantifier": "all settings, formats, types, images and blocks, every encoder with ordered bounds", "why_tests_cant": "every combination of settings on every block, and independence is a statement about pairs of conversions", "anchors": ["lib/src/S3tcConverter.cpp:getRgbcxQualityLevel,getSearchRadius,createBc7BlockParams", "lib/src/EtcConverter.cpp:EtcConverter::EtcConverter", "lib/src/AstcConverter.cpp:AstcConverter::AstcConverter", "lib/src/PvrtcConverter.cpp:PvrtcConverter::process"]}
{"id": "C62", "title": "Loading an image from a stream reads the file that is in it", "statement": "Loading an image from a good stream that can be positioned gives FreeImage exactly what reading a file with the same bytes and position would, as long as FreeImage reads single bytes and neither reads nor seeks outside the content; a whole stream is then loaded as the same bytes in memory are. Whether that was so shows in the stream: it is still good exactly then. A read past the end delivers the bytes left, but afterwards every request is refused, so short files that load from memory can fail to load from a stream; reads of larger items are answered in bytes where a file answers in items. From a stream that cannot be positioned or is not good, the bytes that are left are read completely and loaded as from memory, whatever FreeImage does. Memory of 4 GiB or more is cut to its size modulo 2^32.", "quantifier": "all streams (any content, position and state bits, positionable or not), and all programs of the image library, which choose every request from the earlier answers", "why_tests_cant": "The image library's sequence of reads and seeks depends on the bytes of the file; tests try a few files of a few types.", "anchors": ["lib/src/Image.cpp: readIStream, seekIStream, tellIStream, Image::load", "lib/src/Shared.cpp: readStreamData"]}
{"id": "C63", "title": "Saving an image to a stream stores the file, or shows in the stream", "statement": "If a stream is good after an image was saved to it with single-byte writes, then its content is that of the file FreeImage would have written, and the answer is the one FreeImage would have given, whatever the device behind the stream did; it is good if the device takes every byte and FreeImage seeks only where the stream can go. The answer of save alone does not tell: for encoders that only write it is the same for every stream and device, so true even on a full disk; and writes of larger items are answered in bytes where a file answers in items, so an encoder that checks the answer fails. Saving to a vector always ends, leaves the vector alone if the answer is false and else fills it with all bytes written. An empty image or a name of unknown type is refused and the stream left alone.", "quantifier": "all streams and devices (each write may be cut short), all images and names, and all programs of the image library", "why_tests_cant": "Failures of the device can happen at any write, and the encoder's requests depend on the image.", "anchors": ["lib/src/Image.cpp: writeOStream, seekOStream, tellOStream, Image::save", "lib/src/Shared.cpp: readStreamData"]}
{"id": "C64", "title": "Textures are values", "statement": "In every program that creates, copies, moves, assigns, uses and destroys any number of textures, each statement changes only the textures it assigns; a copy equals the original, except that images may be missing if memory for them ran out, and then it is not complete and refuses to convert; a move hands the texture over and leaves an empty one; self-assignment and self-move change nothing. No memory of a texture is used after it is released, released twice, shared by two textures or left over at the end. An empty texture answers every question with fixed values and refuses every call but initialize and reset.", "quantifier": "all programs over any number of textures, and all patterns of memory exhaustion when images are cloned", "why_tests_cant": "Sharing, leaks and dangling pointers depend on the order of copies, moves, assignments and calls, of which there are infinitely many.", "anchors": ["lib/src/Texture.cpp: Texture::Texture, Texture::operator=, Texture::Impl, Texture::reset, Texture::alphaType"]}
{"id": "C65", "title": "Half floats are the nearest ones", "statement": "Exactly the float textures of formats R16, R16G16, R16G16B16 and R16G16B16A16 store half floats. On hardware with the conversion instruction, whatever the number of threads and the order they run in, channel k of the pixel in row r and column c is the 16-bit word at index (r*width + c)*channels + k: the half float nearest to the channel, ties to the even one, with its sign. Half floats are stored exactly; the error is at most 2^-11 of the value or 2^-25; magnitudes from 65520 on become infinity, smaller ones at most 65504; NaN stays NaN; greater values are never stored as smaller ones. Nothing outside the buffer is written.", "quantifier": "all images of any size within 32-bit pixel counts, all 2^32 values of each channel, all thread counts and schedules", "why_tests_cant": "There are 2^32 values per channel, any number of pixels and any interleaving of threads; rounding errors hide at ties, subnormals and the overflow threshold.", "anchors": ["lib/src/HalfFloat.h: packHardwareHalfFloat1, packHardwareHalfFloat2, packHardwareHalfFloat3, packHardwareHalfFloat4", "lib/src/HalfFloat.cpp: hasHardwareHalfFloat", "lib/src/StandardConverter.h: HalfConverter"]}
{"id": "C66", "title": "Compressed surfaces are their blocks in order", "statement": "For every format with fixed-size blocks (BC, ETC, EAC, ASTC), whatever the number of threads and the order they run in, the converted surface has (blocks across) x (blocks down) x (block size) bytes, and the bytes of block (x, y), at (y * blocks across + x) * block size, are what the encoder answers to the request for the pixels of that block (C60), after the eight bytes of alpha that BC2 stores itself. A block depends only on its own pixels. No job reads outside the image, writes outside the buffer or into another's block. A run is undefined exactly if the request for some block is.", "quantifier": "all block formats and types, all image sizes whose data fits 32 bits, all pixel values, encoders, settings, thread counts and schedules", "why_tests_cant": "Schedules, sizes and pixel values are unbounded, and the encoders are foreign code.", "anchors": ["lib/src/S3tcConverter.cpp: S3tcConverter::process, Bc2Converter::compressBlock", "lib/src/EtcConverter.cpp: EtcConverter::process", "lib/src/AstcConverter.cpp: AstcConverter::process", "lib/src/Converter.cpp: Converter::convert"]}
{"id": "C67", "title": "The data of a texture, and the file it is saved to, is its images", "statement": "After Texture::convert has succeeded, for every face, level and slice the data of an uncompressed format is the image of that place pixel by pixel, row by row, each pixel stored as its format and type say (C19-C22, C65), and the data of a block-compressed format (BC, ETC, EAC, ASTC) is that image block by block, each block what the encoder answers to the request for its pixels and the settings of the call (C60, C61). This does not depend on the number of threads or on their schedule: some run ends, and all that end give the same bytes. A DDS, KTX or PVR file the texture is then saved to contains, where its header says that face, level and slice is, exactly that data. The same holds for the file the command line tool writes and the processed input images. The settings of that call are those of the command line: the quality of the last -Q (normal by default), the format and type, the alpha mode, the channels that are not masked out and the number of jobs.", "quantifier": "all textures reachable through the API, all images, formats and types but PVRTC, settings, thread counts and schedules; all command lines the tool accepts; surfaces whose data fits 32 bits and whose pixels have a defined conversion", "why_tests_cant": "Histories, pixel values, sizes and schedules are unbounded; a test compares a few images of a few formats.", "anchors": ["lib/src/Converter.cpp: Converter::convert, createConverter", "lib/src/StandardConverter.h: StandardConverter", "lib/src/Texture.cpp: Texture::convert, Texture::save", "lib/src/SaveDds.cpp: saveDds", "lib/src/SaveKtx.cpp: saveKtx", "lib/src/SavePvr.cpp: savePvr", "tool/main.cpp: main, saveTexture"]}
{"id": "C68", "title": "The pixels of the file are the pixels of the input pictures", "statement": "When the tool has ended with status 0, every pixel of the first level of the DDS, KTX or PVR file it wrote shows the pixel of the input picture that the requested rotation and flips put there, after the change to the colour space of the texture, grayscale, swizzle and pre-multiplication in that order (an sRGB picture for a format that has no sRGB variant is decoded to light by the sRGB standard's curve; luminance and the product with alpha of an sRGB texture are computed in light and encoded again): for an input with 8 or 16 bits per channel, or with floats from 0 to 1, kept at its size, and an uncompressed format, each channel of the file is the number nearest to the colour's channel (a value within an eighth of a step of halfway may go either way; for floats within 2^-19). For the two formats that pack three unsigned floats into one word, the word is the packer's answer to floats within 2^-19 of the three colours. For signed normalised types 0..1 stands for -1..1; for integer types the number is the input's own level, less half its range when signed, limited to the channel. Hence without grayscale, pre-multiplication and change of colour space nothing is lost: a level v of the input is stored as v in a channel of as many bits (257 v for 8 bits in a 16 bit normalised channel), as v in any wider integer channel, and v - 2^(n-1) in a signed one; a channel the swizzle leaves out is 0, alpha the maximum.", "quantifier": "all accepted command lines without a normal map or resize, in linear and sRGB space (for any std::pow accurate to 50 bits where colours are changed between the two), all pictures of 8 or 16 bit channels or floats from 0 to 1, all pixels and channels, all uncompressed formats and types, all thread counts and schedules", "why_tests_cant": "Every level of every channel at every position under every combination of options has to survive six rounding steps.", "anchors": ["tool/main.cpp: loadAndProcessImage, main", "lib/src/Image.cpp: convert, rotate, flipHorizontal, flipVertical, changeColorSpace, grayscale, swizzle, preMultiplyAlpha", "lib/src/Texture.cpp: adjustImageValueRange, convert, save", "lib/src/StandardConverter.h: StandardConverter", "lib/include/cuttlefish/Color.h: sRGBToLinear, linearToSRGB, toGrayscale"]}
{"id": "C69", "title": "Compressed textures are made from the pixels of the input pictures", "statement": "When the tool has ended with status 0 with a BC, ETC/EAC or ASTC format, the first level of every surface of the DDS, KTX or PVR file consists of the blocks row by row, and each block is what the encoder answers when it is given, row by row, the colours of the pixels of the input that this block shows: those the requested rotation and flips put there, after the change of colour space, grayscale, swizzle and pre-multiplication of C68; past the edges the last column and row are repeated (ETC gets the part inside only). The encoder gets them as bytes nearest to 255 times the colour for the unsigned BC formats (a value within an eighth of a step of halfway may go either way), nearest to 127 times the signed value in two's complement for signed BC4 and BC5, as half floats for BC6H, and as floats within 2^-18 for ETC and ASTC (2^-11 if luminance or products are computed in an sRGB texture, where small light is far apart); signed EAC gets [-1,1] moved to [0,1]. BC2 stores the alphas itself, in sixteenths to the nearest. Hence for a picture with 8 bits per channel whose colours are not changed, the encoder of an unsigned BC format is given exactly the bytes of the picture.", "quantifier": "all accepted command lines without a normal map or resize, in linear and sRGB space (for any std::pow accurate to 50 bits where colours are changed between the two), all pictures of 8 or 16 bit channels or floats from 0 to 1, all blocks, all BC, ETC, EAC and ASTC formats and types (signed EAC: sizes that are multiples of 4, see C60), all encoders, all thread counts and schedules", "why_tests_cant": "The input of a third-party encoder cannot be observed in its output, and every block, option, format and schedule has to be covered.", "anchors": ["tool/main.cpp: loadAndProcessImage, main", "lib/src/S3tcConverter.cpp: process, compressBlock, toColorBlock", "lib/src/EtcConverter.cpp: process", "lib/src/AstcConverter.cpp: process", "lib/src/Converter.cpp: convert", "lib/src/Texture.cpp: adjustImageValueRange, convert"]}
{"id": "C70", "title": "Mip levels show the custom pictures, and stay within the range of the picture otherwise", "statement": "When the tool has ended with status 0, a picture given for a level with --custom-mip that has the size of that level is exactly what the DDS, KTX or PVR file shows at that level, face and layer, in the sense of C68 for plain formats and of C69 for compressed ones. Levels that are generated with a filter without negative weights stay within the range of the picture: if the numbers of a channel of the processed picture lie between lo and hi, then every pixel of every level stands for a number between lo - e and hi + e in that channel, where e is (13 + 2m)/2^22 at level m for normalised and float types, (13 + 2^n m)/2^22 for integer types and pictures of n-bit channels, and (13 + 24m)/2^22 for the colours of sRGB textures, which are averaged in linear space (1420 in place of 13 if luminance or products with alpha are computed in an sRGB texture); for a volume, whose levels average the slices too, m counts twice. The same holds when the base picture is resized first, or a custom picture has another size than its level (then m is 0), with a filter without negative weights: if the pixels of the input lie in a box of colours, in the colour space of the texture, and the grayscale, swizzle and pre-multiplication of every colour of that box stay between lo and hi, then so do the levels, with 25 in place of 13 (in an sRGB texture 1110 for luminance or products, 35000 for both). Hence a channel that is the same in the whole picture, such as the alpha of an opaque picture, has that very value in every pixel of every level, for normalised channels of up to 12 bits (sRGB textures: 8 bits, which is all that there are) and unsigned integers from 8-bit pictures.", "quantifier": "all accepted command lines without a normal map, in linear and sRGB space, all levels, faces and layers, all pictures of any size and of 8 or 16 bit channels or floats from 0 to 1; ranges: linear textures, and sRGB textures of unsigned normalised formats, for any std::pow accurate to 50 bits, 1D, 2D, 3D and cube, of plain formats without unsigned floats, resized or not, all ranges (common to all pictures for a volume), all layers without custom levels up to that level; all thread counts and schedules", "why_tests_cant": "A test can compare the levels of a few pictures; the bounds must hold for every picture, size, level, channel and format, and for what FreeImage's resize may round.", "anchors": ["tool/main.cpp: loadAndProcessImage, createTexture, main", "lib/src/Texture.cpp: generateMipmaps, generateMips3d, setImage, convert", "lib/src/Image.cpp: resize", "lib/src/StandardConverter.h: StandardConverter"]}
{"id": "C71", "title": "What the tool prints agrees with what it did", "statement": "The exit status of the tool and its standard error stream agree: the status is 0, 1, 2 or 3; it is 0 exactly if no text starting with 'error: ' was written to standard error and no help was asked for. Asking for help (no arguments, or -h or --help anywhere) prints the help text to standard output, nothing else, and ends with 1. A rejected command line writes nothing to standard output, at least one error, apart from errors only the warning about low precision, and last of all the line 'Run <program> -h for usage.'. Statuses 2 and 3 come with exactly one error; if an input picture cannot be read the status is 2 and the error names the first such picture. Besides the error, an accepted run writes to standard error only the warning, and it does so exactly if pictures are sRGB, the run is not quiet and the format is one of R4G4, the three four-channel 4-bit formats, R5G6B5, B5G6R5, R5G5B5A1, A1R5G5B5, R8, R8G8 and ETC1 (not B5G5R5A1). A quiet run writes nothing to standard output, and nothing at all if it succeeds; by default the only line on standard output is \"saving texture '<output>'\", which is there if the run succeeds and not if a picture could not be read. A verbose run that succeeds prints, for every input in order and then for every custom picture with its level, one line for loading and one for each thing done to it (conversion to floats, change of colour space, resize with the size that is used, rotation, grayscale, normal map, flips, swizzle, pre-multiplication) and none for what is not done, then whether mipmaps are generated, the conversion and the saving. How much is printed changes neither the status nor the files. Two messages mislead: a number that cannot be read after -M or -C is reported with the option in place of the number, and the message about an unknown cube face has no line end.", "quantifier": "all argument lists, list files, input pictures, flags of the build, encoders, file systems and mkdir answers, all orders in which custom mips are visited; verbose lines: all pictures of 1 to 2^31 - 1 pixels a side", "why_tests_cant": "Scripts rely on the status and on the streams for every command line and every failure; tests can only try some option lists and some failures.", "anchors": ["tool/CommandLine.cpp: CommandLine::parse, validate, readCustomMipList, readImageList", "tool/main.cpp: main, loadAndProcessImage, loadImages, saveTexture"]}
